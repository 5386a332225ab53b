(** Lemmas about packing, hashing and construction. *)
From Coq Require Import Reals.
From Flocq Require Import IEEE754.Binary IEEE754.Bits.
Require Import Verif.Py Verif.Geom Verif.PatchInfo Verif.TractBuilder Verif.TractInfo Verif.SkyMap Verif.SkySpec.
Require Import Verif.Rings Verif.Maps Verif.Dodeca Verif.Config Verif.ConfigSpec.
Open Scope list_scope.
Open Scope Z_scope.
Local Arguments Z.mul : simpl never.
Local Arguments Z.add : simpl never.
Local Arguments Z.modulo : simpl never.
Local Arguments Z.div : simpl never.
Local Arguments Z.pow : simpl never.

Lemma le_bytes_length n v : length (le_bytes n v) = n.
Proof. revert v; induction n as [|n IH]; intros v; cbn; [reflexivity|now rewrite IH]. Qed.

Lemma le_bytes_inj n v w :
  0 <= v < 256 ^ Z.of_nat n -> 0 <= w < 256 ^ Z.of_nat n -> le_bytes n v = le_bytes n w -> v = w.
Proof.
  revert v w; induction n as [|n IH]; intros v w Hv Hw E.
  - change (256 ^ Z.of_nat 0) with 1 in *. lia.
  - rewrite Nat2Z.inj_succ, Z.pow_succ_r in Hv, Hw by lia. cbn in E. injection E as E0 E1.
    apply IH in E1.
    + rewrite (Z.div_mod v 256), (Z.div_mod w 256) by lia. congruence.
    + split; [apply Z.div_pos; lia|apply Z.div_lt_upper_bound; lia].
    + split; [apply Z.div_pos; lia|apply Z.div_lt_upper_bound; lia].
Qed.

Lemma bits_range x : 0 <= bits_of_b64 x < 256 ^ Z.of_nat 8.
Proof.
  change (256 ^ Z.of_nat 8) with (2 ^ (52 + 11 + 1)). unfold bits_of_b64.
  apply (bits_of_binary_float_range 52 11); reflexivity.
Qed.

Lemma bits_inj x y : bits_of_b64 x = bits_of_b64 y -> x = y.
Proof.
  intros E. unfold bits_of_b64 in E.
  rewrite <- (binary_float_of_bits_of_binary_float 52 11 eq_refl eq_refl eq_refl x).
  rewrite <- (binary_float_of_bits_of_binary_float 52 11 eq_refl eq_refl eq_refl y).
  now rewrite E.
Qed.

Lemma app_inj {A} (a b c d : list A) : length a = length c -> a ++ b = c ++ d -> a = c /\ b = d.
Proof.
  revert c; induction a as [|x a IH]; intros [|y c] L E; cbn in *; try discriminate; [now split|].
  injection L as L. injection E as -> E. destruct (IH _ L E). subst. now split.
Qed.

Lemma Ok_inj {A} (a b : A) : Ok a = Ok b -> a = b.
Proof. congruence. Qed.

Definition code_size (f : fcode) : nat := match f with Fi => 4 | Fd => 8 | F3s => 3 | Fbool => 1 end.

Lemma pack1_length f v b : pack1 f v = Ok b -> length b = code_size f.
Proof.
  destruct f, v; cbn; try discriminate.
  - destruct (_ && _); [|discriminate]. intros E; injection E as <-. reflexivity.
  - intros E; injection E as <-. reflexivity.
  - intros E; injection E as <-. destruct b0 as [|? [|? [|? ?]]]; reflexivity.
  - intros E; injection E as <-. reflexivity.
Qed.

Definition sizes (fmt : list fcode) : nat := fold_right (fun f n => (code_size f + n)%nat) 0%nat fmt.
Lemma pack_all_length fmt : forall vs b, pack_all fmt vs = Ok b -> length b = sizes fmt.
Proof.
  induction fmt as [|f fmt IH]; intros [|v vs] b; cbn; try discriminate.
  - intros E; injection E as <-. reflexivity.
  - destruct (pack1 f v) as [b1|e] eqn:E1; cbn; [|discriminate].
    destruct (pack_all fmt vs) as [b2|e] eqn:E2; cbn; [|discriminate].
    intros E; injection E as <-. rewrite app_length, (pack1_length _ _ _ E1), (IH _ _ E2). reflexivity.
Qed.

(** What determines a packed value. *)
Definition same_val (v w : sval) : Prop :=
  match v, w with
  | VBytes a, VBytes b => firstn 3 (a ++ [0; 0; 0]) = firstn 3 (b ++ [0; 0; 0])
  | _, _ => v = w
  end.

Lemma pack1_inj f v w b : pack1 f v = Ok b -> pack1 f w = Ok b -> same_val v w.
Proof.
  destruct f, v, w; cbn [pack1]; try discriminate; cbn [same_val].
  - destruct (_ && _) eqn:R1; [|discriminate]. destruct ((_ <=? z0) && _) eqn:R2; [|discriminate].
    apply andb_true_iff in R1, R2. destruct R1 as [A1 B1], R2 as [A2 B2].
    apply Z.leb_le in A1, A2. apply Z.ltb_lt in B1, B2.
    intros E1 E2. pose proof (Ok_inj _ _ (eq_trans E1 (eq_sym E2))) as E.
    apply le_bytes_inj in E.
    + f_equal. pose proof (Z.div_mod z (2 ^ 32) ltac:(lia)). pose proof (Z.div_mod z0 (2 ^ 32) ltac:(lia)).
      assert (-1 < z / 2 ^ 32 + 1 /\ z / 2 ^ 32 < 1).
      { split; [apply Z.lt_succ_r; pose proof (Z.div_le_lower_bound z (2 ^ 32) (-1)); lia|].
        apply Z.div_lt_upper_bound; lia. }
      assert (-1 < z0 / 2 ^ 32 + 1 /\ z0 / 2 ^ 32 < 1).
      { split; [apply Z.lt_succ_r; pose proof (Z.div_le_lower_bound z0 (2 ^ 32) (-1)); lia|].
        apply Z.div_lt_upper_bound; lia. }
      lia.
    + change (256 ^ Z.of_nat 4) with (2 ^ 32). apply Z.mod_pos_bound; lia.
    + change (256 ^ Z.of_nat 4) with (2 ^ 32). apply Z.mod_pos_bound; lia.
  - intros E1 E2. f_equal. apply bits_inj. apply (le_bytes_inj 8); [apply bits_range|apply bits_range|].
    exact (Ok_inj _ _ (eq_trans E1 (eq_sym E2))).
  - intros E1 E2. exact (Ok_inj _ _ (eq_trans E1 (eq_sym E2))).
  - intros E1 E2. rewrite <- E2 in E1. destruct b0, b1; (reflexivity || discriminate E1).
Qed.

Lemma pack_all_inj fmt : forall vs ws b, pack_all fmt vs = Ok b -> pack_all fmt ws = Ok b -> Forall2 same_val vs ws.
Proof.
  induction fmt as [|f fmt IH]; intros [|v vs] [|w ws] b; cbn; try discriminate; [constructor|].
  destruct (pack1 f v) as [b1|e] eqn:E1; cbn; [|discriminate].
  destruct (pack_all fmt vs) as [b2|e] eqn:E2; cbn; [|discriminate].
  destruct (pack1 f w) as [b3|e] eqn:E3; cbn; [|discriminate].
  destruct (pack_all fmt ws) as [b4|e] eqn:E4; cbn; [|discriminate].
  intros A B. injection A as <-. injection B as B.
  apply app_inj in B; [|now rewrite (pack1_length _ _ _ E1), (pack1_length _ _ _ E3)].
  destruct B as [-> ->]. constructor; [eapply pack1_inj; eassumption|eapply IH; eassumption].
Qed.

Lemma struct_pack_all fmt vs b : struct_pack fmt vs = Ok b -> pack_all fmt vs = Ok b.
Proof. unfold struct_pack. destruct (Nat.eqb _ _); [auto|discriminate]. Qed.

Lemma struct_pack_inj fmt vs ws b :
  struct_pack fmt vs = Ok b -> struct_pack fmt ws = Ok b -> Forall2 same_val vs ws.
Proof. intros A B. apply struct_pack_all in A, B. eapply pack_all_inj; eassumption. Qed.

Lemma struct_pack_length fmt vs b : struct_pack fmt vs = Ok b -> length b = sizes fmt.
Proof. intros A. apply struct_pack_all in A. eapply pack_all_length; eassumption. Qed.

Lemma same_val_int x y : same_val (VInt x) (VInt y) -> x = y.
Proof. cbn. congruence. Qed.
Lemma same_val_float x y : same_val (VFloat x) (VFloat y) -> x = y.
Proof. cbn. congruence. Qed.
Lemma same_val_bool x y : same_val (VBool x) (VBool y) -> x = y.
Proof. cbn. congruence. Qed.
Lemma same_val_proj x y : length x = 3%nat -> length y = 3%nat -> same_val (VBytes x) (VBytes y) -> x = y.
Proof.
  cbn [same_val]. intros L1 L2.
  destruct x as [|? [|? [|? [|? ?]]]]; try discriminate L1.
  destruct y as [|? [|? [|? [|? ?]]]]; try discriminate L2. cbn. auto.
Qed.
Lemma same_val_floats l l' : Forall2 same_val (map VFloat l) (map VFloat l') -> l = l'.
Proof.
  revert l'; induction l as [|x l IH]; intros [|y l'] H; cbn in *; inversion H; subst; [reflexivity|].
  f_equal; [now apply same_val_float|now apply IH].
Qed.

Lemma encode_ascii_ok s b : encode_ascii s = Ok b -> b = s.
Proof. unfold encode_ascii. destruct (forallb _ _); congruence. Qed.

(** ** The packed configuration *)
Lemma packed_length c b : getPackedConfig c = Ok b ->
  length b = match tb_sel (c_tb c) with Legacy => 39%nat | Cells => 47%nat end.
Proof.
  unfold getPackedConfig, selected. destruct (encode_ascii _) as [p|e]; cbn [bind]; [|discriminate].
  destruct (tb_sel _); intros E; apply struct_pack_length in E; exact E.
Qed.

Definition disc_len (k : class_cfg) : nat :=
  match k with
  | RingsCfg _ _ => 12
  | DiscreteCfg _ _ radii => 24 * length radii
  | EquatCfg _ _ => 20
  | DodecaCfg _ => 1
  | HealpixCfg _ _ => 5
  end.
Lemma sizes_repeat n : sizes (repeat Fd n) = (8 * n)%nat.
Proof. induction n as [|n IH]; cbn [repeat sizes fold_right]; [reflexivity|]. fold (sizes (repeat Fd n)). rewrite IH. cbn [code_size]. lia. Qed.

Lemma class_length k b : class_bytes k = Ok b -> length b = disc_len k.
Proof.
  destruct k as [n ra|ras decs radii|n [d0 d1]|w|n nest]; cbn [class_bytes disc_len].
  - intros E; apply struct_pack_length in E; exact E.
  - destruct (struct_pack _ (map VFloat ras)) as [x|e] eqn:E1; cbn [bind]; [|discriminate].
    destruct (struct_pack _ (map VFloat decs)) as [y|e] eqn:E2; cbn [bind]; [|discriminate].
    destruct (struct_pack _ (map VFloat radii)) as [z|e] eqn:E3; cbn [bind]; [|discriminate].
    intros E; injection E as <-. apply struct_pack_length in E1, E2, E3.
    rewrite sizes_repeat in *. rewrite !app_length. lia.
  - intros E; apply struct_pack_length in E; exact E.
  - intros E; apply struct_pack_length in E; exact E.
  - intros E; apply struct_pack_length in E; exact E.
Qed.

Lemma class_bytes_inj k k' b : class_bytes k = Ok b -> class_bytes k' = Ok b ->
  class_name k = class_name k' -> k = k'.
Proof.
  intros E E' N.
  destruct k as [n ra|ras decs radii|n [d0 d1]|w|n nest], k' as [n' ra'|ras' decs' radii'|n' [d0' d1']|w'|n' nest'];
    try discriminate N; clear N.
  - cbn [class_bytes] in *. pose proof (struct_pack_inj _ _ _ _ E E') as H.
    inversion H as [|? ? ? ? H1 H2]; subst. inversion H2 as [|? ? ? ? H3 H4]; subst.
    apply same_val_int in H1. apply same_val_float in H3. congruence.
  - pose proof (class_length _ _ E) as L. pose proof (class_length _ _ E') as L'.
    cbn [disc_len] in L, L'. assert (LR : length radii = length radii') by lia.
    cbn [class_bytes] in E, E'. rewrite <- LR in E'.
    destruct (struct_pack _ (map VFloat ras)) as [x|e] eqn:E1; cbn [bind] in E; [|discriminate].
    destruct (struct_pack _ (map VFloat decs)) as [y|e] eqn:E2; cbn [bind] in E; [|discriminate].
    destruct (struct_pack _ (map VFloat radii)) as [z|e] eqn:E3; cbn [bind] in E; [|discriminate].
    destruct (struct_pack _ (map VFloat ras')) as [x'|e] eqn:E1'; cbn [bind] in E'; [|discriminate].
    destruct (struct_pack _ (map VFloat decs')) as [y'|e] eqn:E2'; cbn [bind] in E'; [|discriminate].
    destruct (struct_pack _ (map VFloat radii')) as [z'|e] eqn:E3'; cbn [bind] in E'; [|discriminate].
    injection E as <-. injection E' as E'.
    pose proof (struct_pack_length _ _ _ E1). pose proof (struct_pack_length _ _ _ E1').
    pose proof (struct_pack_length _ _ _ E2). pose proof (struct_pack_length _ _ _ E2').
    apply app_inj in E'; [|congruence]. destruct E' as [-> E'].
    apply app_inj in E'; [|congruence]. destruct E' as [-> ->].
    f_equal; apply same_val_floats; eapply struct_pack_inj; eassumption.
  - cbn [class_bytes] in *. pose proof (struct_pack_inj _ _ _ _ E E') as H.
    inversion H as [|? ? ? ? H1 H2]; subst. inversion H2 as [|? ? ? ? H3 H4]; subst.
    inversion H4 as [|? ? ? ? H5 H6]; subst.
    apply same_val_int in H1. apply same_val_float in H3, H5. congruence.
  - cbn [class_bytes] in *. pose proof (struct_pack_inj _ _ _ _ E E') as H.
    inversion H as [|? ? ? ? H1 H2]; subst. apply same_val_bool in H1. congruence.
  - cbn [class_bytes] in *. pose proof (struct_pack_inj _ _ _ _ E E') as H.
    inversion H as [|? ? ? ? H1 H2]; subst. inversion H2 as [|? ? ? ? H3 H4]; subst.
    apply same_val_int in H1. apply same_val_bool in H3. congruence.
Qed.

Lemma packed_inj c c' b :
  length (c_projection c) = 3%nat -> length (c_projection c') = 3%nat ->
  getPackedConfig c = Ok b -> getPackedConfig c' = Ok b ->
  selected (c_tb c) = selected (c_tb c') /\ c_overlap c = c_overlap c' /\ c_scale c = c_scale c'
  /\ c_projection c = c_projection c' /\ c_rotation c = c_rotation c'.
Proof.
  intros L L' E E'. pose proof (packed_length _ _ E) as S. pose proof (packed_length _ _ E') as S'.
  unfold getPackedConfig in E, E'.
  destruct (encode_ascii (c_projection c)) as [p|e] eqn:P; cbn [bind] in E; [|discriminate].
  destruct (encode_ascii (c_projection c')) as [p'|e] eqn:P'; cbn [bind] in E'; [|discriminate].
  apply encode_ascii_ok in P, P'. subst p p'.
  unfold selected in *.
  destruct (tb_sel (c_tb c)), (tb_sel (c_tb c')); try (exfalso; lia); cbn [bind] in *.
  - pose proof (struct_pack_inj _ _ _ _ E E') as H.
    repeat match goal with H : Forall2 _ (_ :: _) _ |- _ => inversion H; clear H; subst end.
    repeat match goal with H : same_val (VInt _) _ |- _ => apply same_val_int in H end.
    repeat match goal with H : same_val (VFloat _) _ |- _ => apply same_val_float in H end.
    match goal with H : same_val (VBytes _) _ |- _ => apply same_val_proj in H; [|assumption|assumption] end.
    destruct (lc_inner (tb_legacy (c_tb c))), (lc_inner (tb_legacy (c_tb c'))). cbn [fst snd] in *.
    repeat split; congruence.
  - pose proof (struct_pack_inj _ _ _ _ E E') as H.
    repeat match goal with H : Forall2 _ (_ :: _) _ |- _ => inversion H; clear H; subst end.
    repeat match goal with H : same_val (VInt _) _ |- _ => apply same_val_int in H end.
    repeat match goal with H : same_val (VFloat _) _ |- _ => apply same_val_float in H end.
    match goal with H : same_val (VBytes _) _ |- _ => apply same_val_proj in H; [|assumption|assumption] end.
    destruct (cc_inner (tb_cells (c_tb c))), (cc_inner (tb_cells (c_tb c'))). cbn [fst snd] in *.
    repeat split; congruence.
Qed.

(** Class names that begin a byte string are determined by it. *)
Lemma class_name_prefix k k' a a' : class_name k ++ a = class_name k' ++ a' -> class_name k = class_name k' /\ a = a'.
Proof.
  intros E. assert (N : class_name k = class_name k').
  { destruct k, k'; try reflexivity; exfalso; vm_compute in E; discriminate E. }
  split; [exact N|]. rewrite N in E. now apply app_inv_head in E.
Qed.

Lemma disc_len_mod k k' : class_name k = class_name k' ->
  exists m m', (disc_len k + 24 * m = disc_len k' + 24 * m')%nat.
Proof.
  intros N. destruct k, k'; try discriminate N; cbn [disc_len]; try (now exists 0%nat, 0%nat).
  now exists (length radiusList0), (length radiusList); lia.
Qed.

Lemma hashed_inj c c' b :
  length (c_projection c) = 3%nat -> length (c_projection c') = 3%nat ->
  hashed_bytes c = Ok b -> hashed_bytes c' = Ok b -> same_settings c c'.
Proof.
  intros L L' E E'. unfold hashed_bytes in E, E'.
  destruct (getPackedConfig c) as [p|e] eqn:P; cbn [bind] in E; [|discriminate].
  destruct (class_bytes (c_class c)) as [k|e] eqn:K; cbn [bind] in E; [|discriminate].
  destruct (getPackedConfig c') as [p'|e] eqn:P'; cbn [bind] in E'; [|discriminate].
  destruct (class_bytes (c_class c')) as [k'|e] eqn:K'; cbn [bind] in E'; [|discriminate].
  injection E as <-. injection E' as E'. apply class_name_prefix in E'. destruct E' as [N E'].
  pose proof (packed_length _ _ P) as S. pose proof (packed_length _ _ P') as S'.
  pose proof (class_length _ _ K) as T. pose proof (class_length _ _ K') as T'.
  destruct (disc_len_mod _ _ N) as (m & m' & M).
  assert (LL : length (p' ++ k') = length (p ++ k)) by congruence. rewrite !app_length in LL.
  assert (LP : length p' = length p) by (destruct (tb_sel (c_tb c)), (tb_sel (c_tb c')); lia).
  apply app_inj in E'; [|exact LP]. destruct E' as [-> ->].
  destruct (packed_inj c c' p L L' P P') as (A1 & A2 & A3 & A4 & A5).
  pose proof (class_bytes_inj _ _ _ K K' (eq_sym N)). unfold same_settings. repeat split; auto.
Qed.

Lemma hashed_settings c c' : same_settings c c' -> hashed_bytes c = hashed_bytes c'.
Proof.
  intros (A & B & C & D & F & G). unfold hashed_bytes, getPackedConfig.
  now rewrite A, B, C, D, F, G.
Qed.

(** ** When the hash can be computed *)
Lemma pack_int_ok z : int32 z -> pack1 Fi (VInt z) = Ok (le_bytes 4 (z mod 2 ^ 32)).
Proof.
  intros H. unfold int32 in H. cbn [pack1]. destruct (Z.leb_spec (- 2 ^ 31) z); [|lia].
  destruct (Z.ltb_spec z (2 ^ 31)); [|lia]. reflexivity.
Qed.
Lemma pack_int_fail z b : pack1 Fi (VInt z) = Ok b -> int32 z.
Proof.
  cbn [pack1]. destruct (Z.leb_spec (- 2 ^ 31) z); [|discriminate].
  destruct (Z.ltb_spec z (2 ^ 31)); [|discriminate]. intros _. now split.
Qed.

Lemma pack_floats_ok l n : (exists b, struct_pack (repeat Fd n) (map VFloat l) = Ok b) <-> length l = n.
Proof.
  unfold struct_pack. rewrite repeat_length, map_length. destruct (Nat.eqb_spec n (length l)) as [->|N].
  - split; [auto|]. intros _. induction l as [|x l [b IH]]; cbn [length repeat map pack_all]; [now eexists|].
    rewrite IH. cbn. eauto.
  - split; [intros [b E]; discriminate|congruence].
Qed.

Lemma encode_ok s : (exists b, encode_ascii s = Ok b) <-> (forall ch, In ch s -> 0 <= ch < 128).
Proof.
  unfold encode_ascii. destruct (forallb _ s) eqn:F.
  - split; [|eauto]. intros _ ch H. rewrite forallb_forall in F. specialize (F ch H).
    apply andb_true_iff in F. destruct F as [A B]. apply Z.leb_le in A. apply Z.ltb_lt in B. lia.
  - split; [intros [b E]; discriminate|]. intros H. exfalso. apply not_true_iff_false in F. apply F.
    apply forallb_forall. intros ch Hc. apply H in Hc. apply andb_true_iff.
    split; [apply Z.leb_le|apply Z.ltb_lt]; lia.
Qed.

Lemma pack_all_ok fmt vs : (exists b, pack_all fmt vs = Ok b) <-> Forall2 (fun f v => exists b, pack1 f v = Ok b) fmt vs.
Proof.
  revert vs; induction fmt as [|f fmt IH]; intros [|v vs]; cbn [pack_all].
  - split; [constructor|eauto].
  - split; [intros [b E]; discriminate|intros H; inversion H].
  - split; [intros [b E]; discriminate|intros H; inversion H].
  - split.
    + intros [b E]. destruct (pack1 f v) as [b1|e] eqn:E1; cbn in E; [|discriminate].
      destruct (pack_all fmt vs) as [b2|e] eqn:E2; cbn in E; [|discriminate].
      constructor; [eauto|]. apply IH. eauto.
    + intros H. inversion H as [|? ? ? ? [b1 E1] H2]; subst. apply IH in H2. destruct H2 as [b2 E2].
      rewrite E1, E2. cbn. eauto.
Qed.

Lemma int_ok z : (exists b, pack1 Fi (VInt z) = Ok b) <-> int32 z.
Proof. split; [intros [b E]; eapply pack_int_fail; exact E|intros H; rewrite pack_int_ok by exact H; eauto]. Qed.

Ltac fwd :=
  repeat match goal with
  | H : exists b, pack_all _ _ = Ok b |- _ => apply pack_all_ok in H
  | H : Forall2 _ (_ :: _) (_ :: _) |- _ => inversion H; clear H; subst
  | H : exists b, pack1 Fi (VInt _) = Ok b |- _ => apply int_ok in H
  end.
Ltac bwd := apply pack_all_ok; repeat (apply Forall2_cons; [first [apply int_ok; assumption | eexists; reflexivity]|]); apply Forall2_nil.

Lemma hashed_iff c : (exists b, hashed_bytes c = Ok b) <-> packable c.
Proof.
  unfold packable, hashed_bytes, getPackedConfig.
  split.
  - intros [b E]. destruct (encode_ascii (c_projection c)) as [p|e] eqn:P; cbn [bind] in E; [|discriminate].
    split; [apply encode_ok; eauto|]. clear P.
    destruct (selected (c_tb c)) as [[w h] border|[w h] border n m]; cbn [fst snd] in E;
      (match type of E with context [bind (struct_pack ?f ?v) _] => destruct (struct_pack f v) as [pk|e] eqn:PK end;
       cbn [bind] in E; [|discriminate]);
      apply struct_pack_all in PK;
      (assert (PK' : exists b, pack_all _ _ = Ok b) by (eexists; exact PK)); fwd.
    + split; [repeat (split; [assumption|]); assumption|].
      destruct (class_bytes (c_class c)) as [k|e] eqn:K; cbn [bind] in E; [|discriminate]. clear E.
      destruct (c_class c) as [n ra|ras decs radii|n [d0 d1]|w'|n nest]; cbn [class_bytes] in K.
      * apply struct_pack_all in K. assert (K' : exists b, pack_all _ _ = Ok b) by (eexists; exact K). fwd. assumption.
      * destruct (struct_pack _ (map VFloat ras)) eqn:E1; cbn [bind] in K; [|discriminate].
        destruct (struct_pack _ (map VFloat decs)) eqn:E2; cbn [bind] in K; [|discriminate].
        split; apply pack_floats_ok; eauto.
      * apply struct_pack_all in K. assert (K' : exists b, pack_all _ _ = Ok b) by (eexists; exact K). fwd. assumption.
      * exact I.
      * apply struct_pack_all in K. assert (K' : exists b, pack_all _ _ = Ok b) by (eexists; exact K). fwd. assumption.
    + split; [repeat (split; [assumption|]); assumption|].
      destruct (class_bytes (c_class c)) as [k|e] eqn:K; cbn [bind] in E; [|discriminate]. clear E.
      destruct (c_class c) as [n' ra|ras decs radii|n' [d0 d1]|w'|n' nest]; cbn [class_bytes] in K.
      * apply struct_pack_all in K. assert (K' : exists b, pack_all _ _ = Ok b) by (eexists; exact K). fwd. assumption.
      * destruct (struct_pack _ (map VFloat ras)) eqn:E1; cbn [bind] in K; [|discriminate].
        destruct (struct_pack _ (map VFloat decs)) eqn:E2; cbn [bind] in K; [|discriminate].
        split; apply pack_floats_ok; eauto.
      * apply struct_pack_all in K. assert (K' : exists b, pack_all _ _ = Ok b) by (eexists; exact K). fwd. assumption.
      * exact I.
      * apply struct_pack_all in K. assert (K' : exists b, pack_all _ _ = Ok b) by (eexists; exact K). fwd. assumption.
  - intros (HP & HB & HC). apply encode_ok in HP. destruct HP as [p P]. rewrite P. cbn [bind].
    assert (C : exists k, class_bytes (c_class c) = Ok k).
    { destruct (c_class c) as [n ra|ras decs radii|n [d0 d1]|w'|n nest]; cbn [class_bytes].
      - unfold struct_pack; cbn [Nat.eqb length]. bwd.
      - destruct HC as [A B]. apply pack_floats_ok in A, B. destruct A as [a ->], B as [b ->].
        destruct (proj2 (pack_floats_ok radii (length radii)) eq_refl) as [d ->]. cbn. eauto.
      - unfold struct_pack; cbn [Nat.eqb length]. bwd.
      - cbn. eauto.
      - unfold struct_pack; cbn [Nat.eqb length]. bwd. }
    destruct C as [k ->].
    destruct (selected (c_tb c)) as [[w h] border|[w h] border n m]; cbn [fst snd].
    + destruct HB as (W & H & B).
      assert (Q : exists b, struct_pack [Fi; Fi; Fi; Fd; Fd; F3s; Fd]
        [VInt w; VInt h; VInt border; VFloat (c_overlap c); VFloat (c_scale c); VBytes p; VFloat (c_rotation c)] = Ok b).
      { unfold struct_pack; cbn [Nat.eqb length]. bwd. }
      destruct Q as [b ->]. cbn [bind]. eauto.
    + destruct HB as (W & H & B & N & M).
      assert (Q : exists b, struct_pack [Fi; Fi; Fi; Fi; Fi; Fd; Fd; F3s; Fd]
        [VInt w; VInt h; VInt border; VInt n; VInt m; VFloat (c_overlap c); VFloat (c_scale c); VBytes p; VFloat (c_rotation c)] = Ok b).
      { unfold struct_pack; cbn [Nat.eqb length]. bwd. }
      destruct Q as [b ->]. cbn [bind]. eauto.
Qed.

Lemma bytes_eqb_eq a b : bytes_eqb a b = true <-> a = b.
Proof.
  revert b; induction a as [|x a IH]; intros [|y b]; cbn; try (split; congruence).
  rewrite andb_true_iff, Z.eqb_eq, IH. split; [intros [-> ->]; reflexivity|intros E; injection E as -> ->; auto].
Qed.

(** ** Objects *)
Section Objects.
Variable offset : sphere -> R -> R -> sphere.
Variable skyWcs : pystr -> R -> R -> sphere -> wcs sphere.
Variable pixel_to_angle : Z -> bool -> Z -> R * R.
Variable boundaries : Z -> bool -> Z -> list (R * R).
Variable order : set_order.
Variable sha1 : bytes -> bytes.
Notation construct := (construct offset skyWcs pixel_to_angle boundaries order).

Lemma factory_ok c w : wcsFactory skyWcs c = Ok w ->
  length (c_projection c) = 3%nat /\ w = skyWcs (c_projection c) (f2r (c_scale c)) (f2r (c_rotation c)).
Proof.
  unfold wcsFactory. destruct (Nat.eqb_spec (length (c_projection c)) 3); cbn [negb]; [|discriminate].
  intros E. split; [assumption|congruence].
Qed.

Lemma finish_ok c v d m : finish offset c v d = Ok m ->
  exists s, sm_new offset d = Ok s /\ m = mkMap c v d s None.
Proof. unfold finish. destruct (sm_new offset d) as [s|e]; cbn; [|discriminate]. intros E. exists s. split; congruence. Qed.

Lemma construct_ok c ver m : construct c ver = Ok m ->
  length (c_projection c) = 3%nat /\ m_config m = c /\ m_sha1 m = None /\ sm_new offset (m_def m) = Ok (m_state m).
Proof.
  unfold Config.construct. intros E.
  assert (F : exists w v d, wcsFactory skyWcs c = Ok w /\ finish offset c v d = Ok m).
  { destruct (c_class c) as [n ra|ras decs radii|n [d0 d1]|b|n nest].
    - destruct (rings_init _ _ _); cbn [bind] in E; [|discriminate].
      destruct (wcsFactory _ c); cbn [bind] in E; [|discriminate]. eauto.
    - destruct (wcsFactory _ c); cbn [bind] in E; [|discriminate]. eauto.
    - destruct ver; [discriminate|]. destruct (wcsFactory _ c); cbn [bind] in E; [|discriminate].
      destruct (equat_def _ _ _ _ _); cbn [bind] in E; [|discriminate]. eauto.
    - destruct ver; [discriminate|]. destruct (wcsFactory _ c); cbn [bind] in E; [|discriminate].
      destruct (Dodecahedron_init _ _); cbn [bind] in E; [|discriminate]. eauto.
    - destruct (healpix_nside _); cbn [bind] in E; [|discriminate].
      destruct (wcsFactory _ c); cbn [bind] in E; [|discriminate].
      destruct (healpix_def _ _ _ _ _ _ _); cbn [bind] in E; [|discriminate]. eauto. }
  destruct F as (w & v & d & F & G). apply factory_ok in F. destruct F as [F _].
  apply finish_ok in G. destruct G as (s & G & ->). cbn. auto.
Qed.

Lemma used_fields m m' : used offset sha1 m m' ->
  m_config m' = m_config m /\ m_version m' = m_version m /\ m_def m' = m_def m
  /\ accesses offset (m_def m) (m_state m) (m_state m')
  /\ (m_sha1 m = None -> m_sha1 m' = None \/ exists b, hashed_bytes (m_config m) = Ok b /\ m_sha1 m' = Some (sha1 b)).
Proof.
  induction 1 as [|m1 s H IH Ha|m1 m2 r H IH E].
  - repeat split; auto. constructor.
  - destruct IH as (A & B & C & D & F). cbn. repeat split; auto.
    rewrite C in Ha. clear - D Ha. induction Ha as [|s1 i s2 r0 Ha IHa G]; [exact D|]. econstructor; eassumption.
  - destruct IH as (A & B & C & D & F). unfold getSha1 in E. destruct (m_sha1 m1) as [h|] eqn:Hh.
    + injection E as <- _. repeat split; auto. rewrite Hh. exact F.
    + destruct (hashed_bytes (m_config m1)) as [b|e] eqn:Hb.
      * injection E as <- _. cbn. repeat split; auto. intros _. right. exists b. rewrite <- A. auto.
      * injection E as <- _. repeat split; auto.
Qed.

Lemma getSha1_used c ver m m' : construct c ver = Ok m -> used offset sha1 m m' ->
  snd (getSha1 sha1 m') = match hashed_bytes c with Ok b => Ok (sha1 b) | Raise e => Raise e end.
Proof.
  intros Hc Hu. apply construct_ok in Hc. destruct Hc as (_ & Hc & Hn & _).
  apply used_fields in Hu. destruct Hu as (A & _ & _ & _ & F). specialize (F Hn).
  unfold getSha1. rewrite A, Hc in *. destruct F as [F|(b & Hb & F)]; rewrite F.
  - destruct (hashed_bytes c); reflexivity.
  - rewrite Hb. reflexivity.
Qed.

(** The definition of the map depends on the settings only, and on the version
    only for rings maps. *)
Lemma construct_settings c c' ver ver' m m' :
  same_settings c c' ->
  (match c_class c with RingsCfg _ _ => m_version m = m_version m' | _ => True end) ->
  construct c ver = Ok m -> construct c' ver' = Ok m' -> m_def m = m_def m' /\ m_state m = m_state m'.
Proof.
  intros (K & T & O & S & P & Rr) V E E'.
  assert (D : m_def m = m_def m').
  { unfold Config.construct in E, E'. rewrite <- K, <- T, <- O in E'. unfold wcsFactory in E, E'.
    rewrite <- P, <- S, <- Rr in E'. destruct (negb _); cbn [bind] in E, E'.
    - exfalso. destruct (c_class c) as [n ra|ras decs radii|n [d0 d1]|b|n nest].
      + destruct (rings_init _ _ _); cbn in E; discriminate.
      + discriminate.
      + destruct ver; discriminate.
      + destruct ver; discriminate.
      + destruct (healpix_nside _); cbn in E; discriminate.
    - destruct (c_class c) as [n ra|ras decs radii|n [d0 d1]|b|n nest].
      + destruct (rings_init n (f2r ra) (match (match ver with None => VerInt 1 | Some v => v end) with VerInt z => z | VerTuple _ => -1 end)) as [g|e] eqn:G; cbn [bind] in E; [|discriminate].
        destruct (rings_init n (f2r ra) (match (match ver' with None => VerInt 1 | Some v => v end) with VerInt z => z | VerTuple _ => -1 end)) as [g'|e] eqn:G'; cbn [bind] in E'; [|discriminate].
        apply finish_ok in E, E'. destruct E as (s & E & ->), E' as (s' & E' & ->). cbn in V |- *.
        rewrite V in G. rewrite G in G'. injection G' as ->. reflexivity.
      + apply finish_ok in E, E'. destruct E as (s & E & ->), E' as (s' & E' & ->). reflexivity.
      + destruct ver, ver'; try discriminate. destruct (equat_def _ _ _ _ _); cbn [bind] in E, E'; [|discriminate].
        apply finish_ok in E, E'. destruct E as (s & E & ->), E' as (s' & E' & ->). reflexivity.
      + destruct ver, ver'; try discriminate. destruct (Dodecahedron_init _ _); cbn [bind] in E, E'; [|discriminate].
        apply finish_ok in E, E'. destruct E as (s & E & ->), E' as (s' & E' & ->). reflexivity.
      + destruct (healpix_nside _); cbn [bind] in E, E'; [|discriminate].
        destruct (healpix_def _ _ _ _ _ _ _); cbn [bind] in E, E'; [|discriminate].
        apply finish_ok in E, E'. destruct E as (s & E & ->), E' as (s' & E' & ->). reflexivity. }
  split; [exact D|]. apply construct_ok in E, E'. destruct E as (_ & _ & _ & E), E' as (_ & _ & _ & E').
  rewrite D in E. rewrite E in E'. congruence.
Qed.

Lemma used_reachable c ver m m' : construct c ver = Ok m -> used offset sha1 m m' ->
  sm_reachable offset (m_def m) (m_state m').
Proof.
  intros Hc Hu. apply construct_ok in Hc. destruct Hc as (_ & _ & _ & Hc).
  apply used_fields in Hu. destruct Hu as (_ & _ & _ & D & _). exists (m_state m). now split.
Qed.

(** Unpickling the pickle of a map runs the constructor with the same arguments. *)
Lemma unpickle_construct c ver m m' : construct c ver = Ok m -> used offset sha1 m m' ->
  unpickle offset skyWcs pixel_to_angle boundaries order (pickle m') = Ok m.
Proof.
  intros Hc Hu. pose proof (construct_ok _ _ _ Hc) as (_ & C & _ & _). apply used_fields in Hu. destruct Hu as (A & B & _).
  unfold pickle. rewrite A, C. unfold unpickle.
  assert (K : caching_class (c_class c) = true -> construct c (Some (m_version m)) = Ok m).
  { unfold Config.construct in *. destruct (c_class c) as [n ra|ras decs radii|n [d0 d1]|b|n nest]; try discriminate; intros _.
    - destruct (rings_init _ _ _) as [g|e] eqn:G; cbn [bind] in Hc; [|discriminate].
      destruct (wcsFactory _ c) as [w|e] eqn:W; cbn [bind] in Hc; [|discriminate].
      pose proof (finish_ok _ _ _ _ Hc) as (s & _ & Em). assert (Ev : m_version m = match ver with Some v => v | None => VerInt 1 end) by (now rewrite Em). rewrite Ev, G. cbn [bind]. exact Hc.
    - destruct (wcsFactory _ c) as [w|e] eqn:W; cbn [bind] in Hc; [|discriminate].
      pose proof (finish_ok _ _ _ _ Hc) as (s & _ & Em). assert (Ev : m_version m = match ver with Some v => v | None => VerInt 0 end) by (now rewrite Em). rewrite Ev. exact Hc.
    - destruct (healpix_nside _); cbn [bind] in *; [|discriminate].
      destruct (wcsFactory _ c) as [w|e] eqn:W; cbn [bind] in Hc |- *; [|discriminate].
      destruct (healpix_def _ _ _ _ _ _ _); cbn [bind] in Hc |- *; [|discriminate].
      pose proof (finish_ok _ _ _ _ Hc) as (s & _ & Em). assert (Ev : m_version m = match ver with Some v => v | None => VerInt 0 end) by (now rewrite Em). rewrite Ev. exact Hc. }
  assert (K' : caching_class (c_class c) = false -> ver = None /\ m_version m = VerTuple [1; 0]).
  { clear K. unfold Config.construct in Hc. destruct (c_class c) as [n ra|ras decs radii|n [d0 d1]|b|n nest]; try discriminate; intros _.
    - destruct ver; [discriminate|]. destruct (wcsFactory _ c); cbn [bind] in Hc; [|discriminate].
      destruct (equat_def _ _ _ _ _); cbn [bind] in Hc; [|discriminate].
      apply finish_ok in Hc. destruct Hc as (s & _ & ->). auto.
    - destruct ver; [discriminate|]. destruct (wcsFactory _ c); cbn [bind] in Hc; [|discriminate].
      destruct (Dodecahedron_init _ _); cbn [bind] in Hc; [|discriminate].
      apply finish_ok in Hc. destruct Hc as (s & _ & ->). auto. }
  rewrite B. destruct (caching_class (c_class c)).
  - apply K. reflexivity.
  - destruct (K' eq_refl) as [-> ->]. cbn. exact Hc.
Qed.

(** The construction depends on the settings only. *)
Lemma construct_same c c' ver : same_settings c c' ->
  construct c' ver = (m <- construct c ver ;; Ok (mkMap c' (m_version m) (m_def m) (m_state m) None)).
Proof.
  intros (K & T & O & S & P & Rr). unfold Config.construct. rewrite <- K, <- T, <- O. unfold wcsFactory. rewrite <- P, <- S, <- Rr.
  assert (F : forall v d, finish offset c' v d = (m <- finish offset c v d ;; Ok (mkMap c' (m_version m) (m_def m) (m_state m) None))).
  { intros v d. unfold finish. destruct (sm_new offset d); reflexivity. }
  destruct (c_class c) as [n ra|ras decs radii|n [d0 d1]|b|n nest].
  - destruct (rings_init _ _ _); cbn [bind]; [|reflexivity]. destruct (negb _); cbn [bind]; [reflexivity|apply F].
  - destruct (negb _); cbn [bind]; [reflexivity|apply F].
  - destruct ver; [reflexivity|]. destruct (negb _); cbn [bind]; [reflexivity|].
    destruct (equat_def _ _ _ _ _); cbn [bind]; [apply F|reflexivity].
  - destruct ver; [reflexivity|]. destruct (negb _); cbn [bind]; [reflexivity|].
    destruct (Dodecahedron_init _ _); cbn [bind]; [apply F|reflexivity].
  - destruct (healpix_nside _); cbn [bind]; [|reflexivity]. destruct (negb _); cbn [bind]; [reflexivity|].
    destruct (healpix_def _ _ _ _ _ _ _); cbn [bind]; [apply F|reflexivity].
Qed.
End Objects.
