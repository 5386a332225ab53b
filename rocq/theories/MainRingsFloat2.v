(** findAllTracts in binary64 arithmetic (C92). *)
From Coq Require Import Reals Lra Lia List.
From Flocq Require Import Core BinarySingleNaN.
Require Import Verif.Py Verif.Geom Verif.Float64 Verif.Float64Proofs Verif.PatchInfo Verif.TractBuilder Verif.TractInfo Verif.Spec.
Require Import Verif.SkyMap Verif.SkySpec Verif.SkyProofs Verif.SkyProofs2 Verif.Uniform Verif.Sphere Verif.SphereProofs Verif.TractBox Verif.Examples Verif.TractProofs Verif.PatchProofs Verif.RegionProofs.
Require Import Verif.Rings Verif.RingsSpec Verif.RingsProofs Verif.RingsProofs2 Verif.RingsProofs3 Verif.RingsNear Verif.MainRings Verif.MainRings2 Verif.MainRings3.
Require Import Verif.RingsFloat Verif.RingsFloatSpec Verif.FloatOps Verif.RingsFloatProofs Verif.RingsFloatProofs2 Verif.MainRingsFloat.
Import ListNotations.
Open Scope Z_scope.

(** The pairs (ring, tract) tried in one ring. *)
Definition fr_ring_pairs (g : frings) (coord : f64 * f64) (r : Z) : list (Z * Z) :=
  if (r <? 0) || (fr_numRings g <=? r) then []
  else match fr_raToTractNum g (fst coord) r, py_nth (fr_nums g) r with
       | Ok t, Ok n => map (pair r) (around t n)
       | _, _ => []
       end.

Lemma ring_val g coord r : frings_wf g -> f_coord coord -> 0 <= r < fr_numRings g ->
  exists n t ra', py_nth (fr_nums g) r = Ok n /\ ring_has (exact_rings g) r n
    /\ fr_raToTractNum g (fst coord) r = Ok t /\ raToTractNum (exact_rings g) ra' r = Ok t
    /\ exists k : Z, (Rabs (ra' - f2R (fst coord) + IZR k * (2 * PI)) <= ra_tol)%R.
Proof.
  destruct coord as [ra dec]. intros W (Fr & Fd & Rr & Rd) Hr. cbn [fst snd] in *.
  destruct f_twopi_ok as [_ ET]. rewrite ET in Rr. pose proof PI_bounds as PB. destruct tol_eq as [TD TR].
  assert (R10 : (Rabs (f2R ra) <= 10)%R) by (rewrite Rabs_pos_eq; nums; lra).
  destruct (nth_counts g r W Hr) as (n & En & Hn & Bn).
  destruct (ra_ring n (f2R ra) (f2R (fr_raStart g)) Bn R10 (proj2 (fw_start g W))) as (ra' & K & R1 & R2 & R3).
  eexists n, _, ra'. split; [exact En|]. split; [exact Hn|]. split; [exact (raToTract_val g ra r n W Fr R10 Hr En Bn)|]. split.
  - unfold raToTractNum. change (rg_numRings (exact_rings g)) with (fr_numRings g).
    change (rg_nums (exact_rings g)) with (fr_nums g). change (rg_raStart (exact_rings g)) with (f2R (fr_raStart g)).
    destruct (Z.eqb_spec r (-1)); [lia|]. destruct (Z.eqb_spec r (fr_numRings g)); [lia|]. cbn [orb].
    destruct (Z.leb_spec 0 r); [|lia]. destruct (Z.ltb_spec r (fr_numRings g)); [|lia]. cbn [andb negb].
    rewrite En. cbn [bind]. cbv zeta in R3. rewrite R3. reflexivity.
  - exists (- K). rewrite opp_IZR. rewrite TR. replace (ra' - f2R ra + - IZR K * (2 * PI))%R
      with (ra' - f2R ra - IZR K * (2 * PI))%R by ring. exact R2.
Qed.

Lemma ring_pairs_val g coord r : frings_wf g -> f_coord coord ->
  exists ra', (exists k : Z, Rabs (ra' - f2R (fst coord) + IZR k * (2 * PI)) <= ra_tol)%R
    /\ (forall x, fr_ring_pairs g coord r = ring_pairs (exact_rings g) (ra', x) r)
    /\ fr_ring_candidates g coord r = Ok (map (fun rt => idx (exact_rings g) (fst rt) (snd rt)) (fr_ring_pairs g coord r)).
Proof.
  intros W C. unfold fr_ring_pairs, fr_ring_candidates, ring_pairs. change (rg_numRings (exact_rings g)) with (fr_numRings g). change (rg_nums (exact_rings g)) with (fr_nums g).
  destruct (Z.ltb_spec r 0); [|destruct (Z.leb_spec (fr_numRings g) r)]; cbn [orb].
  1,2: exists (f2R (fst coord)); split; [|split; reflexivity]; exists 0;
    rewrite Rmult_0_l, Rplus_0_r, Rminus_diag_eq, Rabs_R0 by reflexivity; unfold ra_tol; lra.
  destruct (ring_val g coord r W C ltac:(lia)) as (n & t & ra' & En & _ & E1 & E2 & N). exists ra'. split; [exact N|].
  cbn [fst]. rewrite E1, E2, En. cbn [bind]. split; [reflexivity|]. f_equal.
  rewrite map_map. cbn [fst snd].
  etransitivity; [exact (candidates_idx (mkRings (fr_numRings g) (fr_nums g) 0 0 (fr_version g)) r t n)|]. reflexivity.
Qed.

Definition fr_pairs (g : frings) (coord : f64 * f64) (R : Z) : list (Z * Z) := flat_map (fr_ring_pairs g coord) [R - 1; R; R + 1].

Lemma candidates_val g coord : frings_wf g -> f_coord coord ->
  exists dec', (Rabs (dec' - f2R (snd coord)) <= dec_tol /\ - (PI / 2) <= dec' <= PI / 2)%R
    /\ fr_decToRingNum g (snd coord) = Ok (decToRingNum (exact_rings g) dec')
    /\ fr_candidates g coord = Ok (map (fun rt => idx (exact_rings g) (fst rt) (snd rt)) (fr_pairs g coord (decToRingNum (exact_rings g) dec')) ++ [0; fr_numTracts g - 1]).
Proof.
  intros W C. destruct C as (Fr & Fd & Rr & Rd) eqn:EC. clear EC. destruct f_pi_ok as [_ EP]. rewrite EP in Rd. destruct tol_eq as [TD TR].
  destruct (dec_ring g W (snd coord) Fd Rd) as (dec' & Hd & Bd & Er & Rg). exists dec'.
  split; [split; [now rewrite TD|lra]|]. split; [exact Er|].
  unfold fr_candidates. rewrite Er. cbn [bind]. set (R := decToRingNum _ _).
  destruct (ring_pairs_val g coord (R - 1) W C) as (_ & _ & _ & ->). destruct (ring_pairs_val g coord R W C) as (_ & _ & _ & ->).
  destruct (ring_pairs_val g coord (R + 1) W C) as (_ & _ & _ & ->). cbn [bind]. unfold fr_pairs. cbn [flat_map].
  rewrite app_nil_r, !map_app, <- !app_assoc. reflexivity.
Qed.

Section Facts.
Variables (g : frings) (coord : f64 * f64).
Hypotheses (W : frings_wf g) (C : f_coord coord) (A : at_least 3 (exact_rings g)).
Notation E := (exact_rings g).
Let WE : rings_wf E := exact_wf g W.

Lemma fpairs_in R rt : In rt (fr_pairs g coord R) -> R - 1 <= fst rt <= R + 1 /\ exists n, ring_has E (fst rt) n /\ 3 <= n /\ 0 <= snd rt < n
   /\ In rt (fr_ring_pairs g coord (fst rt)).
Proof using WE A C W.
  unfold fr_pairs. rewrite in_flat_map. intros (r & Hr & H). destruct (ring_pairs_val g coord r W C) as (ra' & _ & Ep & _). pose proof H as H0. rewrite (Ep 0%R) in H.
  destruct (ring_pairs_in E WE _ r rt (at_least_2 E A) H) as (<- & n & H1 & H2). cbn [In] in Hr. split; [lia|]. exists n.
  split; [exact H1|]. split; [|auto]. apply A. destruct H1. eapply nth_error_In; eauto.
Qed.
Lemma fpairs_NoDup R : NoDup (fr_pairs g coord R).
Proof using WE A C W.
  assert (N : forall r, NoDup (fr_ring_pairs g coord r)).
  { intros r. destruct (ring_pairs_val g coord r W C) as (ra' & _ & Ep & _). rewrite (Ep 0%R). now apply (ring_pairs_NoDup E WE). }
  assert (D : forall r x, In x (fr_ring_pairs g coord r) -> fst x = r).
  { intros r x. destruct (ring_pairs_val g coord r W C) as (ra' & _ & Ep & _). rewrite (Ep 0%R). intros H. apply (ring_pairs_in E WE _ r x (at_least_2 E A) H). }
  unfold fr_pairs. cbn [flat_map]. rewrite app_nil_r.
  apply NoDup_app_intro; [apply N| |].
  - apply NoDup_app_intro; try apply N. intros x H1 H2. apply D in H1, H2. lia.
  - intros x H1 H2. apply in_app_iff in H2. destruct H2 as [H2|H2]; apply D in H1, H2; lia.
Qed.
End Facts.

(** What is tried: indices of the map, findTract's and the caps among them, none but the north cap twice. *)
Lemma candidates_spec g coord : frings_wf g -> at_least 3 (exact_rings g) -> f_coord coord ->
  exists l, fr_candidates g coord = Ok l
    /\ (forall i, In i l -> 0 <= i < fr_numTracts g)
    /\ (forall i, fr_findIndex g coord = Ok i \/ i = 0 \/ i = fr_numTracts g - 1 -> In i l)
    /\ (fr_version g = 1 -> NoDup l)
    /\ NoDup (filter (fun i => negb (i =? fr_numTracts g - 1)) l).
Proof.
  intros W A C. pose proof (exact_wf g W) as WE. destruct (candidates_val g coord W C) as (dec' & (Hd & Bd) & Er & El).
  set (R := decToRingNum (exact_rings g) dec') in *. eexists. split; [exact El|].
  pose proof (len_pos (exact_rings g) WE) as HL. change (rings_numTracts (exact_rings g)) with (fr_numTracts g) in HL.
  assert (P : forall rt, In rt (fr_pairs g coord R) -> exists n, ring_has (exact_rings g) (fst rt) n /\ 0 <= snd rt < n).
  { intros rt H. destruct (fpairs_in g coord W C A R rt H) as (_ & n & H1 & _ & H2 & _). eauto. }
  assert (ND : NoDup (map (fun rt => idx (exact_rings g) (fst rt) (snd rt)) (fr_pairs g coord R))).
  { apply map_NoDup_in; [|apply (fpairs_NoDup g coord W C A)]. intros [r t] [r' t'] Hx Hy Ex. cbn [fst snd] in Ex.
    destruct (P _ Hx) as (n & H1 & H2). destruct (P _ Hy) as (n' & H1' & H2'). cbn [fst snd] in *.
    destruct (idx_inj (exact_rings g) WE r n t r' n' t' H1 H2 H1' H2' Ex). congruence. }
  assert (RG : forall i, In i (map (fun rt => idx (exact_rings g) (fst rt) (snd rt)) (fr_pairs g coord R)) -> 0 < i < fr_numTracts g).
  { intros i Hi. apply in_map_iff in Hi. destruct Hi as (rt & <- & H). destruct (P _ H) as (n & H1 & H2). exact (idx_range _ WE _ _ _ H1 H2). }
  split; [|split; [|split]].
  - intros i Hi. apply in_app_iff in Hi. destruct Hi as [Hi|Hi]; [specialize (RG i Hi); lia|cbn in Hi; lia].
  - intros i Hi. apply in_app_iff. destruct Hi as [Hi|Hi]; [|right; cbn; lia].
    unfold fr_findIndex in Hi. rewrite Er in Hi. cbn [bind] in Hi. fold R in Hi. clearbody R.
    destruct (Z.eqb_spec R (-1)) as [_|N1]; [injection Hi as <-; right; now left|].
    destruct (Z.eqb_spec R (fr_numRings g)) as [_|N2]; [injection Hi as <-; right; right; now left|]. left.
    assert (HR : 0 <= R < fr_numRings g).
    { unfold fr_raToTractNum in Hi. destruct (Z.eqb_spec R (-1)); [lia|]. destruct (Z.eqb_spec R (fr_numRings g)); [lia|]. cbn [orb] in Hi.
      destruct (Z.leb_spec 0 R), (Z.ltb_spec R (fr_numRings g)); cbn [andb negb bind] in Hi; try discriminate; lia. }
    destruct (ring_val g coord R W C HR) as (n & t & ra' & En & Hn & E1 & E2 & _). rewrite E1 in Hi. cbn [bind] in Hi. injection Hi as <-.
    destruct (raToTract_spec (exact_rings g) WE ra' R n Hn) as (t' & E2' & Ht' & _). rewrite E2 in E2'. injection E2' as <-.
    apply in_map_iff. exists (R, t). split.
    + cbn [fst snd]. unfold idx. change (rg_version (exact_rings g)) with (fr_version g). unfold nominal_index, before, py_prefix.
      change (rg_nums (exact_rings g)) with (fr_nums g). destruct (_ && _ && _); lia.
    + unfold fr_pairs. apply in_flat_map. exists R. split; [cbn; tauto|]. unfold fr_ring_pairs.
      destruct (Z.ltb_spec R 0); [lia|]. destruct (Z.leb_spec (fr_numRings g) R); [lia|]. cbn [orb]. rewrite E1, En. apply in_map, around_self, Ht'.
  - intros V. apply NoDup_app_intro; [exact ND| |].
    + constructor; [cbn; lia|]. constructor; [intros []|constructor].
    + intros x Hx Hy. pose proof (RG x Hx). apply in_map_iff in Hx. destruct Hx as ([r t] & <- & Hx). cbn [fst snd] in *.
      destruct (P _ Hx) as (n & H1 & H2). cbn [fst snd] in *. rewrite idx_v1 in Hy by exact V.
      pose proof (nominal_inner (exact_rings g) WE r n t H1 H2) as B. change (rings_numTracts (exact_rings g)) with (fr_numTracts g) in B. cbn in Hy. lia.
  - rewrite filter_app. apply NoDup_app_intro; [now apply NoDup_filter| |].
    + cbn [filter]. rewrite Z.eqb_refl. cbn [negb]. destruct (negb _); [constructor; [intros []|constructor]|constructor].
    + intros x Hx Hy. apply filter_In in Hx, Hy. destruct Hx as [Hx _], Hy as [Hy Hz]. pose proof (RG x Hx).
      apply Bool.negb_true_iff, Z.eqb_neq in Hz. cbn in Hy. lia.
Qed.

(*@ C92: findAllTracts in binary64, for every coordinate (two doubles): it returns only tracts that contain the coordinate; it returns
    the tract that findTract (in binary64) selects, and each polar cap, whenever these contain the coordinate; with
    version 1 it returns no tract twice, with version 0 none but the north cap. *)
Lemma rings_float_all_tracts_proof : forall offset c mk ov g coord s s' l,
  frings_wf g -> at_least 3 (exact_rings g) -> f_coord coord ->
  let d := rings_def c mk ov (exact_rings g) in
  sm_reachable offset d s -> fr_findAllTracts offset d g coord s = (s', Ok l) ->
  accesses offset d s s'
  /\ (forall t, In t l -> tract_contains t (fval coord) = Ok true /\ exists i, holds offset d i s' t)
  /\ (forall i, fr_findIndex g coord = Ok i \/ i = 0 \/ i = fr_numTracts g - 1 ->
        exists t, holds offset d i s' t /\ (tract_contains t (fval coord) = Ok true -> In t l))
  /\ (fr_version g = 1 -> NoDup (map t_id l))
  /\ NoDup (filter (fun i => negb (i =? fr_numTracts g - 1)) (map t_id l)).
Proof.
  intros offset c mk ov g coord s s' l W A C d Hr H.
  destruct (candidates_spec g coord W A C) as (cs & Ec & Crng & Cin & Cn1 & Cn).
  unfold fr_findAllTracts, smbind, smlift in H. rewrite Ec in H. fold (fval coord) in H.
  destruct (try_tracts_spec offset d (fval coord) cs ltac:(intros i Hi; specialize (Crng i Hi); lia) _ _ _ _ Hr H) as (Ha & ts & F & Hc & ->). cbn [app].
  pose proof (reachable_accesses _ _ _ _ Hr Ha) as Hr'.
  split; [exact Ha|]. split; [|split].
  - intros t Ht. apply filter_In in Ht. destruct Ht as [Hin Hb]. destruct (Hc t Hin) as (b & Eb).
    unfold has_it in Hb. rewrite Eb in *. subst b. split; [reflexivity|].
    clear -F Hin. induction F as [|i t' l' ts' Hh F IH]; [destruct Hin|]. destruct Hin as [->|Hin]; [eauto|auto].
  - intros i Hi. destruct (Forall2_in_l _ _ _ i F (Cin i Hi)) as (t & Hin2 & Ht). exists t. split; [exact Ht|].
    intros Et. apply filter_In. split; [apply in_combine_r in Hin2; exact Hin2|]. unfold has_it. now rewrite Et.
  - assert (E : map t_id ts = cs).
    { clear -F Hr'. induction F as [|i t l ts Hh F IH]; cbn; [reflexivity|]. rewrite IH. f_equal. eapply holds_id; eauto. }
    assert (Hsub : forall (p : tract sphere -> bool) (q : Z -> bool) ts,
        NoDup (filter q (map t_id ts)) -> NoDup (filter q (map t_id (filter p ts)))).
    { clear. intros p q ts. induction ts as [|t ts IH]; cbn; [auto|]. intros Hn.
      assert (Hn' : NoDup (filter q (map t_id ts))) by (destruct (q (t_id t)); [inversion Hn; assumption|exact Hn]).
      destruct (p t); [|auto]. cbn. destruct (q (t_id t)) eqn:Eq; [|auto]. constructor; [|auto].
      inversion Hn as [|x y Hx Hy]; subst. intros Hin. apply Hx. apply filter_In in Hin. destruct Hin as [Hin Hq].
      apply filter_In. split; [|exact Hq]. apply in_map_iff in Hin. destruct Hin as (t' & <- & Ht').
      apply in_map. apply filter_In in Ht'. apply Ht'. }
    assert (Hall : forall l : list Z, filter (fun _ => true) l = l) by (induction l as [|x l IH]; cbn; congruence).
    split.
    + intros V. specialize (Hsub (has_it (fval coord)) (fun _ => true) ts). rewrite !Hall in Hsub. apply Hsub. rewrite E. auto.
    + apply Hsub. now rewrite E.
Qed.

(*@ C92: and it always succeeds, for a map with TAN or STG projection and after any history. *)
Lemma rings_float_all_tracts_succeeds_proof : forall c S mk ov g coord s, cfg_ok c -> frings_wf g -> at_least 3 (exact_rings g) -> f_coord coord ->
  standard_wcs S mk -> let d := rings_def c mk ov (exact_rings g) in
  sm_reachable sphere_offset d s ->
  exists s' l, fr_findAllTracts sphere_offset d g coord s = (s', Ok l).
Proof.
  intros c S mk ov g coord s Hc W A C Hm d Hr. pose proof (exact_wf g W) as WE.
  destruct (candidates_spec g coord W A C) as (cs & Ec & Crng & _).
  destruct (fr_findAllTracts sphere_offset d g coord s) as [s' [l|e]] eqn:E; [eauto|]. exfalso.
  unfold fr_findAllTracts, smbind, smlift in E. rewrite Ec in E. fold (fval coord) in E.
  destruct (try_tracts_spec sphere_offset d (fval coord) cs ltac:(intros i Hi; specialize (Crng i Hi); lia) _ _ _ _ Hr E) as (_ & i & s1 & Hi & Ha & H).
  destruct (rings_uniform_proof c S mk ov (exact_rings g) Hc WE Hm) as (_ & K). fold d in K, H.
  destruct (K s1 (reachable_accesses _ _ _ _ Hr Ha)) as (_ & K1 & _). destruct (K1 i (Crng i Hi)) as (s2 & t & E2).
  destruct H as [H|(t' & H & Hcon)]; rewrite E2 in H; [discriminate|]. injection H as -> ->.
  pose proof (reachable_accesses _ _ _ _ Hr Ha) as Hr1.
  destruct (getitem_holds sphere_offset d s1 i s' t' Hr1 (proj1 (Crng i Hi)) E2) as (Hr2 & _ & Hh).
  destruct (holds_args sphere_offset d s' i t' Hr2 Hh) as (_ & a & b & b' & oid & Ea & Hb & M).
  destruct (rings_args_inv _ _ _ _ _ Ea) as (ctr & cor & _ & ->). cbn [make_tract] in M.
  destruct (explicit_init_inv _ _ _ _ _ _ _ _ _ _ _ _ M) as (t0 & M0 & Ew & _).
  destruct (TractBox.tract_build_box sphere_offset c _ _ _ _ _ _ _ _ _ _ _ Hc Hb M0)
    as (m & B & x0 & y0 & nx & ny & _ & _ & _ & _ & _ & _ & _ & Hwcs & _).
  unfold tract_contains in Hcon. rewrite Ew, Hwcs in Hcon.
  destruct (standard_zenithal S mk Hm) as (f & _ & Hf). rewrite Hf in Hcon.
  unfold zenithal in Hcon. destruct (f _); discriminate.
Qed.

(*@ C92: which tracts findAllTracts considers in binary64.  It finds every tract of a ring that contains the coordinate and whose centre is
    less than 1.5 ring heights minus 2^-48 radians away in declination and less than 1.5 tract widths minus 2^-46 radians in RA (with
    version 0, except the duplicate tract of index ringNums[0]+1); it finds no tract of a ring further away than 1.5 heights or widths
    plus these tolerances. *)
Lemma rings_float_all_tracts_near_proof : forall offset c mk ov g coord s s' l,
  frings_wf g -> at_least 3 (exact_rings g) -> f_coord coord ->
  let G := exact_rings g in let d := rings_def c mk ov G in
  sm_reachable offset d s -> fr_findAllTracts offset d g coord s = (s', Ok l) ->
  (forall s2 i t r k n, accesses offset d s' s2 -> holds offset d i s2 t ->
     getRingIndices G i = Ok (r, k) -> ring_has G r n ->
     fr_version g = 1 \/ fr_numRings g = 1 \/ (forall n0, ring_has G 0 n0 -> i <> n0 + 1) ->
     near (3 / 2 * rg_size G - dec_tol) (3 / 2 * (2 * PI / IZR n) - ra_tol) (t_ctr t) (fval coord) ->
     tract_contains t (fval coord) = Ok true -> In t l)
  /\ (forall t r k n, In t l -> 0 < t_id t < fr_numTracts g - 1 ->
     getRingIndices G (t_id t) = Ok (r, k) -> ring_has G r n ->
     near_or_at (3 / 2 * rg_size G + dec_tol) (3 / 2 * (2 * PI / IZR n) + ra_tol) (t_ctr t) (fval coord)).
Proof.
  intros offset c mk ov g coord s s' l W A C G d Hr H. pose proof (exact_wf g W) as WE. fold G in A, WE. assert (HN : rings_numTracts G = fr_numTracts g /\ rg_numRings G = fr_numRings g) by (split; reflexivity).
  destruct (candidates_spec g coord W A C) as (cs & Ec & Crng & _).
  destruct (candidates_val g coord W C) as (dec' & (Hd & Bd) & _ & El). rewrite Ec in El. injection El as El. fold G in El. set (Rn := decToRingNum G dec') in *.
  unfold fr_findAllTracts, smbind, smlift in H. rewrite Ec in H. fold (fval coord) in H.
  destruct (try_tracts_spec offset d (fval coord) cs ltac:(intros i Hi; specialize (Crng i Hi); lia) _ _ _ _ Hr H) as (Ha & ts & F & Hc & ->). cbn [app].
  pose proof (reachable_accesses _ _ _ _ Hr Ha) as Hr'. pose proof (len_pos G WE) as HL.
  split.
  - intros s2 i t r k n Ha2 Hh E Hn Hcase (Ddec & kk & Dra) Hcon.
    pose proof (reachable_accesses _ _ _ _ Hr' Ha2) as Hr2.
    destruct (rings_holds offset c mk ov G i s2 t Hr2 Hh) as (Hi & Hid & Ecn & _).
    destruct (ring_has_lt G WE r n Hn) as [Hrr Hn1].
    assert (Hii : 0 < i < rings_numTracts G - 1).
    { destruct (Z.eq_dec i 0) as [->|]; [rewrite indices_south in E; injection E as <- _; lia|].
      destruct (Z.eq_dec i (rings_numTracts G - 1)) as [->|]; [rewrite (indices_north G WE) in E; injection E as <- _; lia|lia]. }
    destruct (ring_position G i r k n WE E Hn Hii) as (t' & Ht' & Ec' & Eidx).
    rewrite Ecn in Ec'. injection Ec' as Ec'. rewrite Ec' in Ddec, Dra.
    assert (Hn3 : 3 <= n) by (apply A; destruct Hn; eapply nth_error_In; eauto).
    assert (Hin : In i cs).
    { rewrite El, in_app_iff. left. apply in_map_iff. exists (r, t'). cbn [fst snd]. split; [now apply Eidx|].
      unfold fr_pairs. apply in_flat_map. exists r. destruct (ring_pairs_val g coord r W C) as (ra' & (k' & Hk') & Ep & _). split.
      - assert (Rn - 1 <= r <= Rn + 1); [|cbn; lia]. apply (proj2 (decs_near G WE dec' r Hrr)).
        change (snd (position G r t' n)) with (rg_size G * (IZR r + 1) - 1 / 2 * PI)%R in Ddec. cbn [snd fval] in Ddec.
        apply Rabs_lt. apply Rabs_lt_inv in Ddec. apply Rabs_le_inv in Hd. lra.
      - rewrite (Ep 0%R). apply (proj2 (ring_near G WE (ra', 0%R) r n t' Hn Hn3 Ht')). exists (kk + k'). cbn [fst fval] in *. rewrite plus_IZR.
        apply Rabs_lt. apply Rabs_lt_inv in Dra. apply Rabs_le_inv in Hk'. lra. }
    destruct (Forall2_in_l _ _ _ i F Hin) as (t2 & Hin2 & Ht2).
    pose proof (holds_accesses offset d s' s2 i t2 Hr' Ha2 Ht2) as Ht3.
    pose proof (holds_fun _ _ _ _ _ _ Hh Ht3) as <-.
    apply filter_In. split; [apply in_combine_r in Hin2; exact Hin2|]. unfold has_it. now rewrite Hcon.
  - intros t r k n Ht Hii E Hn. apply filter_In in Ht. destruct Ht as [Hin _].
    assert (exists i, In i cs /\ holds offset d i s' t) as (i & Hi & Hh).
    { clear -F Hin. induction F as [|i t' l' ts' Hh F IH]; [destruct Hin|]. destruct Hin as [->|Hin].
      - exists i. split; [now left|exact Hh].
      - destruct (IH Hin) as (j & H1 & H2). exists j. split; [now right|exact H2]. }
    destruct (rings_holds offset c mk ov G i s' t Hr' Hh) as (Hir & Hid & Ecn & _). rewrite Hid in *.
    rewrite El, in_app_iff in Hi. destruct Hi as [Hi|Hi]; [|exfalso; cbn in Hi; lia].
    apply in_map_iff in Hi. destruct Hi as ([r' t'] & Ei & Hi). cbn [fst snd] in Ei.
    destruct (fpairs_in g coord W C A Rn (r', t') Hi) as (Rr & n' & Hn' & Hn3 & Ht' & Hp). cbn [fst snd] in *.
    destruct (idx_indices G r' n' t' WE Hn' Ht' ltac:(change (rings_numTracts G) with (fr_numTracts g); lia)) as (k' & E' & Ep). rewrite Ei, E in E'.
    injection E' as <- <-. pose proof (ring_has_fun G r n n' Hn Hn'). subst n'.
    rewrite (center_of G WE i r k n E Hn) in Ecn. injection Ecn as Ecn. rewrite Ep in Ecn. rewrite <- Ecn.
    destruct (ring_has_lt G WE r n Hn) as [Hrr _].
    destruct (ring_pairs_val g coord r W C) as (ra' & (kr & Hkr) & Epr & _). rewrite (Epr 0%R) in Hp. split.
    + pose proof (proj1 (decs_near G WE dec' r Hrr) Rr Bd) as K. change (snd (position G r t' n)) with (rg_size G * (IZR r + 1) - 1 / 2 * PI)%R. cbn [snd fval].
      apply Rabs_le. apply Rabs_le_inv in K, Hd. lra.
    + destruct (proj1 (ring_near G WE (ra', 0%R) r n t' Hn Hn3 Ht') Hp) as (k0 & K). exists (k0 - kr). cbn [fst fval] in *. rewrite minus_IZR.
      apply Rabs_le. apply Rabs_le_inv in K, Hkr. lra.
Qed.

(*@ C92, non-vacuity: three rings of 8 tracts, version 1, and a coordinate close to the edge of a ring: what is tried, and findAllTracts on a fresh map. *)
Example rings_float_all_tracts_met_proof :
  let coord := (float_of_int 6, float_of_int (-1)) in
  let mk := stg_wcs (arcsec_scale (333 / 1000)) in
  let d := rings_def legacy_default mk 1 (exact_rings ex_frings) in
  frings_wf ex_frings /\ at_least 3 (exact_rings ex_frings) /\ f_coord coord /\ cfg_ok legacy_default
  /\ standard_wcs (arcsec_scale (333 / 1000)) mk
  /\ fr_candidates ex_frings coord = Ok [7; 8; 1; 15; 16; 9; 0; 25] /\ fr_decToRingNum ex_frings (snd coord) = Ok 0
  /\ exists s, sm_reachable sphere_offset d s.
Proof.
  intros coord mk d. split; [exact ex_frings_wf|]. split; [intros n [<-|[<-|[<-|[]]]]; lia|]. split; [exact (proj1 ex_fcoord)|].
  split; [cbn; lia|]. split; [now right|]. split; [vm_compute; reflexivity|]. split; [vm_compute; reflexivity|].
  eexists; exists (mkSM (repeat None (Z.to_nat (sd_num d))) (builder_init legacy_default) 0 []); split; [reflexivity|constructor].
Qed.

(*@ C77, C92: a coordinate without a declination (NaN): findTract and findAllTracts raise ValueError, whatever the map's history, but findTractIdArray
    does not: it silently returns a tract of the first ring, namely the one it returns for the same right ascension (in [0, 2 pi)) and a declination in the
    first ring. *)
Lemma rings_float_nan_refuted_proof : forall g ra, frings_wf g ->
  fr_findIndex g (ra, B754_nan) = Raise ValueError
  /\ (forall offset d s, fr_findAllTracts offset d g (ra, B754_nan) s = (s, Raise ValueError))
  /\ (forall dec n, f_coord (ra, dec) -> fr_decToRingNum g dec = Ok 0 -> ring_has (exact_rings g) 0 n ->
        exists i, 1 <= i <= n /\ fr_findTractIdArray g false [(ra, B754_nan); (ra, dec)] = Ok [i; i]).
Proof.
  intros g ra W.
  assert (Hs : forall y : f64, fsub B754_nan y = B754_nan) by (intros [| | |]; reflexivity).
  assert (Hd : forall y : f64, fdiv B754_nan y = B754_nan) by (intros [| | |]; reflexivity).
  assert (Hl : forall y : f64, fltb B754_nan y = false /\ fltb y B754_nan = false /\ fleb y B754_nan = false).
  { intros y. split; [|split]; [reflexivity|destruct y as [| | |[]]; reflexivity|destruct y as [| | |[]]; reflexivity]. }
  assert (Hr : fr_decToRingNum g B754_nan = Raise ValueError).
  { unfold fr_decToRingNum. rewrite (proj1 (Hl _)), (proj1 (proj2 (Hl _))), Hs, Hd. reflexivity. }
  split; [|split].
  - unfold fr_findIndex. cbn [snd]. rewrite Hr. reflexivity.
  - intros offset d s. unfold fr_findAllTracts, fr_candidates, smbind, smlift. cbn [snd]. rewrite Hr. reflexivity.
  - intros dec n C E0 Hn. pose proof (exact_wf g W) as WE.
    destruct (rings_float_array_proof g false [(ra, dec)] W) as (ids & Ei & F).
    { intros r x [[= <- <-]|[]]. exact C. }
    unfold fr_findTractIdArray in *. cbn [mapM] in *. destruct (fr_findId1 g false (ra, dec)) as [i|] eqn:E1; [|discriminate]. cbn [bind] in Ei. injection Ei as <-.
    assert (N0 : (0 =? fr_numRings g) = false) by (pose proof (fw_rings g W); lia).
    assert (E2 : fr_findId1 g false (ra, B754_nan) = Ok i).
    { rewrite <- E1. destruct C as (_ & Fd & _). cbn [fst snd] in Fd.
      pose proof (dec_ring_array g W dec Fd) as D. unfold fr_findId1. cbv zeta in *. cbn [fst snd].
      rewrite D, E0. destruct (Hl (fr_first g)) as (H1 & _ & H3). destruct (Hl (fmul (float_of_int (-1)) (fr_first g))) as (_ & H2 & _). rewrite H1, H2, H3. reflexivity. }
    exists i. split; [|cbn [mapM]; rewrite E2, ?E1; reflexivity].
    inversion F as [|? ? ? ? F0 _]; subst. clear F. rename F0 into F. cbn [fst snd f_rad] in F.
    destruct C as (Fr & Fd & Rr & Rd) eqn:EC. clear EC. cbn [fst snd] in *.
    unfold fr_findIndex, f_spherePoint in F. cbn [fst snd] in F. rewrite E0 in F. cbn [bind] in F. change (0 =? -1) with false in F. rewrite N0 in F.
    assert (C' : f_coord (f_wrap ra, dec)).
    { destruct (f_wrap_val ra Fr) as [F2 Q]. destruct f_twopi_ok as [_ ET]. rewrite ET in Rr. rewrite (proj1 (wrapR_id _ Rr)) in Q.
      split; [exact F2|]. split; [exact Fd|]. cbn [fst snd]. rewrite Q, ET. split; assumption. }
    destruct (ring_val g (f_wrap ra, dec) 0 W C' ltac:(pose proof (fw_rings g W); lia)) as (n' & t & ra' & En & Hn' & G1 & G2 & _). cbn [fst] in G1.
    rewrite G1 in F. cbn [bind] in F. rewrite Bool.andb_false_r in F. injection F as F.
    pose proof (ring_has_fun _ 0 n n' Hn Hn'). subst n'.
    destruct (raToTract_spec (exact_rings g) WE ra' 0 n Hn) as (t' & G2' & Ht' & _). rewrite G2 in G2'. injection G2' as <-.
    change (zsum (py_prefix (fr_nums g) 0)) with 0 in F. lia.
Qed.
