(** The zfp header: what zfp_write_header writes and what zfp_read_header makes of it. *)
From Coq Require Import ZArith List Bool Arith Lia.
From Verif Require Import ListAux Bits Bitstream BitstreamProofs BitstreamProofs2 StreamSpec StreamRuns.
From Verif Require Import EmbedSpec ZfpCodec ZfpCodecProofs ZfpCodecProofs2 EmbedRuns ZfpXform BlockSpec BlockProofs PropertiesZfpEmbed.
From Verif Require Import ZfpArray ArraySpec ArrayProofs ArrayProofs3 ZfpFloat ZfpApi PropertiesZfpApi.
Import ListNotations.
Local Open Scope Z_scope.
Ltac Zify.zify_post_hook ::= idtac.

(** the low n bits of v, least significant first *)
Definition number (n : nat) (v : Z) : list bool := map (fun i => Z.testbit v (Z.of_nat i)) (seq 0 n).

(** layout of the header *)
Definition magic_bits : list bool := number 8 122 ++ number 8 102 ++ number 8 112 ++ number 8 5.
Definition size_bits (f : field) : nat := (48 / length (sizes f))%nat.
Definition meta_bits (t : ztype) (f : field) : list bool :=
  number 2 (type_code t - 1) ++ number 2 (Z.of_nat (length (sizes f)) - 1) ++
  concat (map (fun n => number (size_bits f) (Z.of_nat n - 1)) (sizes f)).
Definition mode_bits (p : params) : list bool := number (if stream_mode p <=? 4094 then 12 else 64) (stream_mode p).
Definition header_bits (p : params) (t : ztype) (f : field) (mask : hmask) : list bool :=
  (if h_magic mask then magic_bits else []) ++ (if h_meta mask then meta_bits t f else []) ++
  (if h_mode mask then mode_bits p else []).

(** arrays whose type and sizes the metadata can express *)
Definition meta_ok (t : ztype) (f : field) : Prop :=
  t <> t_none /\ sizes f <> [] /\ Forall (fun n => Z.of_nat n < 2 ^ 32 /\ Z.of_nat n <= 2 ^ Z.of_nat (size_bits f)) (sizes f).

Lemma number_zbits n v : number n v = zbits n v.
Proof. apply op_bits_zbits. Qed.
Lemma number_length n v : length (number n v) = n.
Proof. unfold number. rewrite map_length, seq_length. reflexivity. Qed.

Lemma push_value m k v b : 0 <= k -> 0 <= m -> 0 <= v < 2 ^ 32 -> m * 2 ^ k + v < 2 ^ b -> 0 <= b <= 64 -> push m k v = m * 2 ^ k + v.
Proof.
  intros Hk Hm Hv Hb B. unfold push, u64, uint. rewrite shl by lia.
  pose proof (Z.pow_pos_nonneg 2 k ltac:(lia) Hk). pose proof (Z.pow_le_mono_r 2 b 64 ltac:(lia) ltac:(lia)).
  assert (0 <= m * 2 ^ k) by (apply Z.mul_nonneg_nonneg; lia).
  rewrite (Z.mod_small v) by lia. rewrite (Z.mod_small (m * 2 ^ k)) by lia. apply Z.mod_small. lia.
Qed.

Lemma zbits_cons_field n m v w : 0 <= w < 2 ^ Z.of_nat n -> zbits (n + m) (v * 2 ^ Z.of_nat n + w) = zbits n w ++ zbits m v.
Proof.
  intros Hw. rewrite zbits_app. pose proof (Z.pow_pos_nonneg 2 (Z.of_nat n) ltac:(lia) ltac:(lia)).
  replace ((v * 2 ^ Z.of_nat n + w) / 2 ^ Z.of_nat n) with v.
  2:{ apply (Z.div_unique _ _ _ w); lia. }
  rewrite <- (zbits_mod n (v * _ + w)). rewrite Z.add_comm, Z_mod_plus_full, zbits_mod. reflexivity.
Qed.
Lemma type_code_range t : t <> t_none -> 0 <= type_code t - 1 < 4.
Proof. destruct t; cbn; [congruence|lia..]. Qed.

Ltac pushes := repeat match goal with |- context [push ?m ?k ?v] =>
  lazymatch m with context [push _ _ _] => fail | _ => rewrite (push_value m k v 64) by lia end end.

Lemma metadata_value t f : meta_ok t f ->
  let n v := Z.of_nat v - 1 in
  let k := Z.of_nat (size_bits f) in
  metadata t f = (fold_right (fun s m => m * 2 ^ k + n s) 0 (sizes f) * 2 ^ 2 + (Z.of_nat (length (sizes f)) - 1)) * 2 ^ 2 + (type_code t - 1) /\
  0 <= fold_right (fun s m => m * 2 ^ k + n s) 0 (sizes f) < 2 ^ 48.
Proof.
  intros (Ht & Hs & Hf). cbv zeta. pose proof (type_code_range t Ht) as Hc. set (ty := type_code t - 1) in *.
  unfold metadata. fold ty. clearbody ty.
  destruct (sizes_cases f) as [(D & E & _)|[(D & E & _ & P)|[(D & E & _ & P)|[(D & E & _ & P)|(D & E & _ & P)]]]];
    rewrite D; unfold size_bits in *; rewrite E in *; [congruence| | | |];
    repeat match goal with H : Forall _ (_ :: _) |- _ => apply Forall_cons_iff in H; destruct H as [[? ?] H] end;
    cbn [length] in *;
    cbn [fold_right];
    repeat match goal with |- context [Z.of_nat (?g f)] => let v := fresh "v" in set (v := Z.of_nat (g f)) in * end.
  all: repeat match goal with H : context [Z.of_nat (48 / ?n)] |- _ => let c := eval vm_compute in (Z.of_nat (48 / n)) in change (Z.of_nat (48 / n)) with c in * end.
  - change (Z.of_nat 1 - 1) with 0. change (Z.of_nat 1) with 1.
    assert (0 < v) by lia. clearbody v.
    pushes. lia.
  - change (Z.of_nat 2) with 2. assert (0 < v /\ 0 < v0) by lia. clearbody v v0.
    pushes. lia.
  - change (Z.of_nat 3) with 3. assert (0 < v /\ 0 < v0 /\ 0 < v1) by lia. clearbody v v0 v1.
    pushes. lia.
  - change (Z.of_nat 4) with 4. assert (0 < v /\ 0 < v0 /\ 0 < v1 /\ 0 < v2) by lia. clearbody v v0 v1 v2.
    pushes. lia.
Qed.

Lemma sizes_len f : sizes f <> [] -> (1 <= length (sizes f) <= 4)%nat.
Proof.
  intros H. destruct (sizes_cases f) as [(D & E & _)|[(D & E & _)|[(D & E & _)|[(D & E & _)|(D & E & _)]]]]; rewrite E in *; cbn; try lia; congruence.
Qed.
Lemma sizes_pos f : Forall (fun n => (0 < n)%nat) (sizes f).
Proof.
  destruct (sizes_cases f) as [(D & E & _)|[(D & E & _ & P)|[(D & E & _ & P)|[(D & E & _ & P)|(D & E & _ & P)]]]]; rewrite E; repeat constructor; lia.
Qed.

Lemma zbits_fold k l : Forall (fun n => (0 < n)%nat /\ Z.of_nat n <= 2 ^ Z.of_nat k) l ->
  zbits (length l * k) (fold_right (fun s m => m * 2 ^ Z.of_nat k + (Z.of_nat s - 1)) 0 l) =
  concat (map (fun n => zbits k (Z.of_nat n - 1)) l).
Proof.
  induction l as [|x l IH]; intros H; [reflexivity|]. apply Forall_cons_iff in H. destruct H as [H1 H2].
  cbn [length fold_right map concat]. replace (Datatypes.S (length l) * k)%nat with (k + length l * k)%nat by lia.
  rewrite zbits_cons_field by lia. rewrite IH; auto.
Qed.

Lemma metadata_bits t f : meta_ok t f -> zbits 52 (metadata t f) = meta_bits t f /\ 0 <= metadata t f < 2 ^ 52.
Proof.
  intros H. destruct (metadata_value t f H) as [E B]. cbv zeta in *. destruct H as (Ht & Hs & Hf).
  pose proof (type_code_range t Ht) as Hc. pose proof (sizes_len f Hs) as Hl.
  assert (Hk : (length (sizes f) * size_bits f = 48)%nat).
  { unfold size_bits. destruct (length (sizes f)) as [|[|[|[|[|]]]]]; try lia; reflexivity. }
  set (F := fold_right _ 0 (sizes f)) in *. rewrite E. split; [|lia].
  unfold meta_bits. rewrite !number_zbits.
  change (2 ^ 2) with (2 ^ Z.of_nat 2). change 52%nat with (2 + (2 + 48))%nat.
  rewrite zbits_cons_field by (cbn; lia). rewrite zbits_cons_field by (cbn; lia). f_equal. f_equal.
  rewrite <- Hk. unfold F. rewrite zbits_fold.
  - f_equal. apply map_ext. intros a. symmetry. apply number_zbits.
  - apply Forall_forall. intros x Hx. pose proof (sizes_pos f) as P. rewrite Forall_forall in P, Hf.
    specialize (P _ Hx). specialize (Hf _ Hx). cbn beta in Hf. split; [exact P|apply Hf].
Qed.

Lemma set_metadata_back t f f0 : meta_ok t f ->
  exists nx ny nz nw, set_metadata f0 (metadata t f) = (t, mk_field nx ny nz nw 0 0 0 0 (fdata f0)) /\
  sizes (mk_field nx ny nz nw 0 0 0 0 (fdata f0)) = sizes f.
Proof.
  intros H. destruct (metadata_value t f H) as [E B]. cbv zeta in *. destruct H as (Ht & Hs & Hf).
  pose proof (type_code_range t Ht) as Hc. pose proof (sizes_len f Hs) as Hl.
  set (F := fold_right _ 0 (sizes f)) in *.
  unfold set_metadata. change (Z.land (metadata t f) 3) with (Z.land (metadata t f) (2 ^ 2 - 1)).
  rewrite land_mask, !shr by lia.
  assert (E1 : metadata t f mod 2 ^ 2 = type_code t - 1).
  { rewrite E, Z.add_comm, Z_mod_plus_full. apply Z.mod_small. lia. }
  assert (E2 : metadata t f / 2 ^ 2 = F * 2 ^ 2 + (Z.of_nat (length (sizes f)) - 1)).
  { symmetry. apply (Z.div_unique _ _ _ (type_code t - 1)); lia. }
  rewrite E1, E2. change 3 with (2 ^ 2 - 1) at 1. cbv zeta.
  change (Z.land (F * 2 ^ 2 + (Z.of_nat (length (sizes f)) - 1)) 3) with (Z.land (F * 2 ^ 2 + (Z.of_nat (length (sizes f)) - 1)) (2 ^ 2 - 1)).
  rewrite land_mask by lia.
  assert (E3 : (F * 2 ^ 2 + (Z.of_nat (length (sizes f)) - 1)) mod 2 ^ 2 = Z.of_nat (length (sizes f)) - 1).
  { rewrite Z.add_comm, Z_mod_plus_full. apply Z.mod_small. lia. }
  assert (E4 : (F * 2 ^ 2 + (Z.of_nat (length (sizes f)) - 1)) / 2 ^ 2 = F).
  { symmetry. apply (Z.div_unique _ _ _ (Z.of_nat (length (sizes f)) - 1)); lia. }
  rewrite E3, E4. replace (code_type (type_code t - 1 + 1)) with t by (destruct t; try congruence; reflexivity).
  clear E E1 E2 E3 E4.
  change 0xffffffff with (2 ^ 32 - 1). change 0xffffff with (2 ^ 24 - 1). change 0xffff with (2 ^ 16 - 1). change 0xfff with (2 ^ 12 - 1).
  rewrite !land_mask by lia. 
  assert (U : forall n, (0 < n)%nat -> Z.of_nat n < 2 ^ 32 -> Z.to_nat (uint (Z.of_nat n - 1 + 1)) = n).
  { intros n _ Hn. unfold uint. replace (Z.of_nat n - 1 + 1) with (Z.of_nat n) by lia. rewrite Z.mod_small by lia. apply Nat2Z.id. }
  assert (S : forall m k v, 0 <= k -> 0 <= v < 2 ^ k -> (m * 2 ^ k + v) mod 2 ^ k = v /\ (m * 2 ^ k + v) / 2 ^ k = m).
  { intros m k v Hk Hv. pose proof (Z.pow_pos_nonneg 2 k ltac:(lia) Hk). split.
    - rewrite Z.add_comm, Z_mod_plus_full. apply Z.mod_small. lia.
    - symmetry. apply (Z.div_unique _ _ _ v); lia. }
  assert (DD : forall x a b, 0 <= a -> 0 <= b -> x / 2 ^ (a + b) = x / 2 ^ a / 2 ^ b).
  { intros x a b Ha Hb. rewrite Z.pow_add_r by lia. symmetry. apply Z.div_div; [apply Z.pow_nonzero; lia|apply Z.pow_pos_nonneg; lia]. }
  assert (DD16 : forall x, x / 2 ^ 32 = x / 2 ^ 16 / 2 ^ 16) by (intros; apply (DD x 16 16); lia).
  assert (DD24 : forall x, x / 2 ^ 24 = x / 2 ^ 12 / 2 ^ 12) by (intros; apply (DD x 12 12); lia).
  assert (DD36 : forall x, x / 2 ^ 36 = x / 2 ^ 24 / 2 ^ 12) by (intros; apply (DD x 24 12); lia).
  unfold F in *. clear F.
  destruct (sizes_cases f) as [(D & E & _)|[(D & E & _ & P)|[(D & E & _ & P)|[(D & E & _ & P)|(D & E & _ & P)]]]];
    unfold size_bits in *; rewrite E in *; [congruence| | | |];
    repeat match goal with H : Forall _ (_ :: _) |- _ => apply Forall_cons_iff in H; destruct H as [[? ?] H] end;
    cbn [length fold_right] in *.
  all: repeat match goal with H : context [Z.of_nat (48 / ?n)] |- _ => let c := eval vm_compute in (Z.of_nat (48 / n)) in change (Z.of_nat (48 / n)) with c in * end.
  - exists (fnx f), 0%nat, 0%nat, 0%nat. cbn [Z.of_nat Pos.of_succ_nat Z.sub Z.add Z.opp Pos.pred_double Z.eqb Pos.eqb Z.pos_sub].
    rewrite (Z.mod_small _ (2 ^ 32)) by lia.
    split; [|cbn [sizes zfp_field_dimensionality fnx fny fnz fnw]; unfold sizes, zfp_field_dimensionality; cbn; destruct (fnx f); [lia|reflexivity]].
    f_equal. f_equal. replace (0 * 2 ^ 48 + (Z.of_nat (fnx f) - 1) + 1) with (Z.of_nat (fnx f) - 1 + 1) by lia. apply U; lia.
  - exists (fnx f), (fny f), 0%nat, 0%nat. change (Z.of_nat 2 - 1 + 1) with 2. cbn [Z.eqb Pos.eqb].
    destruct (S (0 * 2 ^ 24 + (Z.of_nat (fny f) - 1)) 24 (Z.of_nat (fnx f) - 1)) as [A1 A2]; [lia|lia|].
    destruct (S 0 24 (Z.of_nat (fny f) - 1)) as [B1 B2]; [lia|lia|].
    rewrite A1, A2, B1. rewrite !U by lia. split; [reflexivity|].
    unfold sizes, zfp_field_dimensionality; cbn [fnx fny fnz fnw]. destruct (fnx f); [lia|]. destruct (fny f); [lia|reflexivity].
  - exists (fnx f), (fny f), (fnz f), 0%nat. change (Z.of_nat 3 - 1 + 1) with 3. cbn [Z.eqb Pos.eqb].
    destruct (S ((0 * 2 ^ 16 + (Z.of_nat (fnz f) - 1)) * 2 ^ 16 + (Z.of_nat (fny f) - 1)) 16 (Z.of_nat (fnx f) - 1)) as [A1 A2]; [lia|lia|].
    destruct (S (0 * 2 ^ 16 + (Z.of_nat (fnz f) - 1)) 16 (Z.of_nat (fny f) - 1)) as [B1 B2]; [lia|lia|].
    destruct (S 0 16 (Z.of_nat (fnz f) - 1)) as [C1 C2]; [lia|lia|].
    rewrite (DD16 _). rewrite A1, A2, B1, B2, C1. rewrite !U by lia. split; [reflexivity|].
    unfold sizes, zfp_field_dimensionality; cbn [fnx fny fnz fnw]. destruct (fnx f); [lia|]. destruct (fny f); [lia|]. destruct (fnz f); [lia|reflexivity].
  - exists (fnx f), (fny f), (fnz f), (fnw f). change (Z.of_nat 4 - 1 + 1) with 4. cbn [Z.eqb Pos.eqb].
    destruct (S (((0 * 2 ^ 12 + (Z.of_nat (fnw f) - 1)) * 2 ^ 12 + (Z.of_nat (fnz f) - 1)) * 2 ^ 12 + (Z.of_nat (fny f) - 1)) 12 (Z.of_nat (fnx f) - 1)) as [A1 A2]; [lia|lia|].
    destruct (S ((0 * 2 ^ 12 + (Z.of_nat (fnw f) - 1)) * 2 ^ 12 + (Z.of_nat (fnz f) - 1)) 12 (Z.of_nat (fny f) - 1)) as [B1 B2]; [lia|lia|].
    destruct (S (0 * 2 ^ 12 + (Z.of_nat (fnw f) - 1)) 12 (Z.of_nat (fnz f) - 1)) as [C1 C2]; [lia|lia|].
    destruct (S 0 12 (Z.of_nat (fnw f) - 1)) as [D1 D2]; [lia|lia|].
    rewrite (DD36 _), !(DD24 _). rewrite A1, A2, B1, B2, C1, C2, D1. rewrite !U by lia. split; [reflexivity|].
    unfold sizes, zfp_field_dimensionality; cbn [fnx fny fnz fnw]. destruct (fnx f); [lia|]. destruct (fny f); [lia|]. destruct (fnz f); [lia|]. destruct (fnw f); [lia|reflexivity].
Qed.

(* ------------------------------------------------------------------------------------ *)
Section Header.
Variable W : nat.
Hypothesis HW : (1 <= W <= 64)%nat.

Lemma wr_number s L l n v : wat W s L -> 0 <= v < 2 ^ 64 -> (n <= 64)%nat ->
  (length L + (length l + n) <= cap W s)%nat ->
  wr_bits W n v (put W s l) = put W s (l ++ number n v).
Proof.
  intros Hw Hv Hn Hc. unfold wr_bits. destruct (put_wrote W HW s L l Hw ltac:(lia)) as (A1 & A2 & A3).
  rewrite (write_bits_put W HW _ _ v n A3 Hv Hn) by (rewrite app_length, A2; lia).
  rewrite put_app. reflexivity.
Qed.

Lemma mode_bits_eq p : mode_bits p = number (if ZFP_MODE_SHORT_MAX <? stream_mode p then ZFP_MODE_LONG_BITS else ZFP_MODE_SHORT_BITS) (stream_mode p).
Proof. unfold mode_bits, ZFP_MODE_SHORT_MAX. destruct (Z.leb_spec (stream_mode p) 4094), (Z.ltb_spec 4094 (stream_mode p)); try lia; reflexivity. Qed.

Lemma meta_bits_length t f : meta_ok t f -> length (meta_bits t f) = 52%nat.
Proof. intros H. destruct (metadata_bits t f H) as [<- _]. apply zbits_length. Qed.

Lemma write_header_put p t f mask s L :
  wat W s L -> (h_meta mask = true -> meta_ok t f) -> (h_mode mask = true -> 0 <= stream_mode p < 2 ^ 64) ->
  (length L + length (header_bits p t f mask) <= cap W s)%nat ->
  write_header W p t f mask s = (length (header_bits p t f mask), put W s (header_bits p t f mask)).
Proof.
  intros Hw Hme Hmo Hc. unfold write_header, header_bits in *.
  destruct (h_magic mask) eqn:E1.
  - assert (M : length magic_bits = 32%nat) by reflexivity.
    assert (wr_bits W 8 codec_version (wr_bits W 8 112 (wr_bits W 8 102 (wr_bits W 8 122 s))) = put W s magic_bits) as ->.
    { rewrite <- (put_nil W s) at 1. rewrite !app_length, M in Hc.
      rewrite (wr_number s L) by (try assumption; try lia; cbn [length]; lia).
      rewrite (wr_number s L) by (try assumption; try lia; rewrite ?app_length, ?number_length; cbn [length]; lia).
      rewrite (wr_number s L) by (try assumption; try lia; rewrite ?app_length, ?number_length; cbn [length]; lia).
      unfold codec_version. rewrite (wr_number s L) by (try assumption; try lia; rewrite ?app_length, ?number_length; cbn [length]; lia).
      reflexivity. }
    destruct (h_meta mask) eqn:E2.
    + specialize (Hme eq_refl). destruct (metadata_bits t f Hme) as [M1 M2]. pose proof (meta_bits_length t f Hme) as ML.
      rewrite !app_length, M, ML in Hc.
      rewrite (wr_number s L) by (try assumption; try (unfold ZFP_META_BITS; rewrite ?M; lia)).
      change (number ZFP_META_BITS (metadata t f)) with (number 52 (metadata t f)). rewrite number_zbits, M1.
      destruct (h_mode mask) eqn:E3.
      * specialize (Hmo eq_refl). rewrite mode_bits_eq in *. rewrite number_length in Hc.
        set (k := if ZFP_MODE_SHORT_MAX <? stream_mode p then ZFP_MODE_LONG_BITS else ZFP_MODE_SHORT_BITS) in *.
        assert (k <= 64)%nat by (unfold k, ZFP_MODE_LONG_BITS, ZFP_MODE_SHORT_BITS; destruct (_ <? _); lia).
        rewrite (wr_number s L) by (try assumption; try lia; rewrite ?app_length, ?M, ?ML; lia).
        rewrite !app_length, M, ML, number_length, <- app_assoc. f_equal.
      * rewrite !app_nil_r, app_length, M, ML. reflexivity.
    + destruct (h_mode mask) eqn:E3.
      * specialize (Hmo eq_refl). rewrite mode_bits_eq in *. cbn [app] in *. rewrite !app_length, number_length in Hc.
        set (k := if ZFP_MODE_SHORT_MAX <? stream_mode p then ZFP_MODE_LONG_BITS else ZFP_MODE_SHORT_BITS) in *.
        assert (k <= 64)%nat by (unfold k, ZFP_MODE_LONG_BITS, ZFP_MODE_SHORT_BITS; destruct (_ <? _); lia).
        rewrite (wr_number s L) by (try assumption; try lia; rewrite ?app_length, ?M; lia).
        rewrite !app_length, M, number_length. f_equal.
      * rewrite !app_nil_r, M. reflexivity.
  - destruct (h_meta mask) eqn:E2.
    + specialize (Hme eq_refl). destruct (metadata_bits t f Hme) as [M1 M2]. pose proof (meta_bits_length t f Hme) as ML.
      cbn [app] in *. rewrite !app_length, ML in Hc. 
      assert (wr_bits W ZFP_META_BITS (metadata t f) s = put W s (meta_bits t f)) as ->.
      { rewrite <- (put_nil W s) at 1. rewrite (wr_number s L) by (try assumption; try (unfold ZFP_META_BITS; cbn [length]; lia)).
        change (number ZFP_META_BITS (metadata t f)) with (number 52 (metadata t f)). rewrite number_zbits, M1. reflexivity. }
      destruct (h_mode mask) eqn:E3.
      * specialize (Hmo eq_refl). rewrite mode_bits_eq in *. rewrite number_length in Hc.
        set (k := if ZFP_MODE_SHORT_MAX <? stream_mode p then ZFP_MODE_LONG_BITS else ZFP_MODE_SHORT_BITS) in *.
        assert (k <= 64)%nat by (unfold k, ZFP_MODE_LONG_BITS, ZFP_MODE_SHORT_BITS; destruct (_ <? _); lia).
        rewrite (wr_number s L) by (try assumption; try lia; rewrite ?app_length, ?ML; lia).
        rewrite !app_length, ML, number_length. f_equal.
      * rewrite !app_nil_r, ML. reflexivity.
    + cbn [app] in *. destruct (h_mode mask) eqn:E3; [|reflexivity].
      specialize (Hmo eq_refl). rewrite mode_bits_eq in *. rewrite number_length in *.
        set (k := if ZFP_MODE_SHORT_MAX <? stream_mode p then ZFP_MODE_LONG_BITS else ZFP_MODE_SHORT_BITS) in *.
        assert (k <= 64)%nat by (unfold k, ZFP_MODE_LONG_BITS, ZFP_MODE_SHORT_BITS; destruct (_ <? _); lia).
        rewrite <- (put_nil W s) at 1. rewrite (wr_number s L) by (try assumption; try lia; cbn [length]; lia). reflexivity.
Qed.

(** reading a number *)
Lemma read_number m pos n v B s : readable W m pos (number n v ++ B) s -> (n <= 64)%nat ->
  exists s', stream_read_bits W s n = (v mod 2 ^ Z.of_nat n, s') /\ readable W m (pos + n) B s'.
Proof.
  intros R Hn. pose proof (readable_prefix W HW _ _ _ _ _ R) as (R1 & R2 & R3). rewrite number_length in R2, R3.
  pose proof (rat_read_bits W HW m pos s n R1 Hn R2) as D. destruct (stream_read_bits W s n) as [u s'].
  destruct D as [-> D]. exists s'. rewrite R3, number_zbits, bitsz_zbits. split; [reflexivity|].
  pose proof (readable_next W HW m pos _ B s s' R) as N. rewrite number_length in N. apply N. exact D.
Qed.

Lemma firstn_split {A} a : forall b (l : list A), firstn (a + b) l = firstn a l ++ firstn b (skipn a l).
Proof. induction a as [|a IH]; intros b l; [reflexivity|]. destruct l as [|x l]; cbn; [now rewrite firstn_nil|]. now rewrite IH. Qed.

Lemma read_magic_spec m pos s : rat W m pos s -> (pos + 32 <= W * length m)%nat ->
  let '(ok, s') := read_magic W s in
  fault s' = false /\ (ok = true -> firstn 32 (skipn pos (membits W m)) = magic_bits /\ rat W m (pos + 32) s').
Proof.
  intros R Hc. unfold read_magic.
  assert (B : forall k l (v : Z), (length l = k)%nat -> bitsz l = v -> l = number k v).
  { intros k l v <- <-. rewrite number_zbits. symmetry. apply zbits_bitsz. }
  assert (LN : forall q, (q + 8 <= W * length m)%nat -> length (firstn 8 (skipn q (membits W m))) = 8%nat).
  { intros q Hq. rewrite firstn_length_le; auto. rewrite skipn_length, membits_length by auto. lia. }
  pose proof (rat_read_bits W HW m pos s 8 R ltac:(lia) ltac:(lia)) as D1. destruct (stream_read_bits W s 8) as [c1 s1]. destruct D1 as [E1 R1].
  destruct (Z.eqb_spec c1 122) as [F1|]; cbn [negb]; [|split; [apply R1|discriminate]].
  pose proof (rat_read_bits W HW m _ s1 8 R1 ltac:(lia) ltac:(lia)) as D2. destruct (stream_read_bits W s1 8) as [c2 s2]. destruct D2 as [E2 R2].
  destruct (Z.eqb_spec c2 102) as [F2|]; cbn [negb]; [|split; [apply R2|discriminate]].
  pose proof (rat_read_bits W HW m _ s2 8 R2 ltac:(lia) ltac:(lia)) as D3. destruct (stream_read_bits W s2 8) as [c3 s3]. destruct D3 as [E3 R3].
  destruct (Z.eqb_spec c3 112) as [F3|]; cbn [negb]; [|split; [apply R3|discriminate]].
  pose proof (rat_read_bits W HW m _ s3 8 R3 ltac:(lia) ltac:(lia)) as D4. destruct (stream_read_bits W s3 8) as [c4 s4]. destruct D4 as [E4 R4].
  split; [apply R4|]. intros F4. apply Z.eqb_eq in F4.
  apply (eq_trans (eq_sym E1)) in F1. apply (eq_trans (eq_sym E2)) in F2. apply (eq_trans (eq_sym E3)) in F3. apply (eq_trans (eq_sym E4)) in F4.
  apply (B 8%nat) in F1; [|apply LN; lia]. apply (B 8%nat) in F2; [|apply LN; lia]. apply (B 8%nat) in F3; [|apply LN; lia]. apply (B 8%nat) in F4; [|apply LN; lia].
  split; [|replace (pos + 32)%nat with (pos + 8 + 8 + 8 + 8)%nat by lia; exact R4].
  unfold magic_bits. rewrite <- F1, <- F2, <- F3. change codec_version with 5 in F4. rewrite <- F4.
  assert (SP : forall k q, firstn (8 + k) (skipn q (membits W m)) = firstn 8 (skipn q (membits W m)) ++ firstn k (skipn (q + 8) (membits W m))).
  { intros k q. rewrite firstn_split, <- skipn_add. f_equal. f_equal. f_equal. lia. }
  rewrite (SP 24%nat), (SP 16%nat), (SP 8%nat). reflexivity.
Qed.

Lemma read_magic_ok m pos B s : readable W m pos (magic_bits ++ B) s ->
  exists s', read_magic W s = (true, s') /\ readable W m (pos + 32) B s'.
Proof.
  intros R. unfold magic_bits in R. rewrite <- !app_assoc in R. unfold read_magic.
  destruct (read_number _ _ _ _ _ _ R ltac:(lia)) as (s1 & -> & R1). change (122 mod _ =? 122) with true. cbn [negb].
  destruct (read_number _ _ _ _ _ _ R1 ltac:(lia)) as (s2 & -> & R2). change (102 mod _ =? 102) with true. cbn [negb].
  destruct (read_number _ _ _ _ _ _ R2 ltac:(lia)) as (s3 & -> & R3). change (112 mod _ =? 112) with true. cbn [negb].
  destruct (read_number _ _ _ _ _ _ R3 ltac:(lia)) as (s4 & -> & R4). exists s4. split; [reflexivity|].
  replace (pos + 32)%nat with (pos + 8 + 8 + 8 + 8)%nat by lia. exact R4.
Qed.

Lemma read_header_back p t f mask q t0 f0 m pos B s :
  (h_meta mask = true -> meta_ok t f) -> (h_mode mask = true -> valid p /\ encodable p) ->
  readable W m pos (header_bits p t f mask ++ B) s ->
  let '(n, q', t', f', s') := read_header W q t0 f0 mask s in
  n = length (header_bits p t f mask) /\ readable W m (pos + n) B s' /\
  q' = (if h_mode mask then p else q) /\ t' = (if h_meta mask then t else t0) /\
  (if h_meta mask then exists nx ny nz nw, f' = mk_field nx ny nz nw 0 0 0 0 (fdata f0) /\ sizes f' = sizes f else f' = f0).
Proof.
  intros Hme Hmo R. unfold header_bits in R. rewrite <- !app_assoc in R.
  unfold read_header.
  set (P := if h_magic mask then _ else (true, 0%nat, s)).
  assert (A : exists s1, P = (true, length (if h_magic mask then magic_bits else []), s1) /\
    readable W m (pos + length (if h_magic mask then magic_bits else [])) ((if h_meta mask then meta_bits t f else []) ++ (if h_mode mask then mode_bits p else []) ++ B) s1).
  { unfold P. destruct (h_magic mask).
    - destruct (read_magic_ok _ _ _ _ R) as (s1 & -> & R1). exists s1. split; [reflexivity|exact R1].
    - exists s. cbn [length app] in *. rewrite Nat.add_0_r. split; auto. }
  destruct A as (s1 & -> & R1). clear R. cbn [negb].
  set (k1 := length (if h_magic mask then magic_bits else [])) in *.
  set (P := if h_meta mask then _ else (k1, t0, f0, s1)).
  assert (A : exists s2 f', P = ((k1 + length (if h_meta mask then meta_bits t f else []))%nat, if h_meta mask then t else t0, f', s2) /\
    (if h_meta mask then exists nx ny nz nw, f' = mk_field nx ny nz nw 0 0 0 0 (fdata f0) /\ sizes f' = sizes f else f' = f0) /\
    readable W m (pos + k1 + length (if h_meta mask then meta_bits t f else [])) ((if h_mode mask then mode_bits p else []) ++ B) s2).
  { unfold P. destruct (h_meta mask).
    - specialize (Hme eq_refl). destruct (metadata_bits t f Hme) as [M1 M2]. rewrite <- M1, <- number_zbits in R1.
      destruct (read_number _ _ _ _ _ _ R1 ltac:(lia)) as (s2 & E & R2). unfold ZFP_META_BITS. rewrite E.
      rewrite Z.mod_small by exact M2. destruct (set_metadata_back t f f0 Hme) as (nx & ny & nz & nw & F1 & F2). rewrite F1.
      exists s2, (mk_field nx ny nz nw 0 0 0 0 (fdata f0)). rewrite (meta_bits_length t f Hme). split; [reflexivity|].
      split; [exists nx, ny, nz, nw; auto|exact R2].
    - exists s1, f0. cbn [length app] in *. rewrite !Nat.add_0_r. auto. }
  destruct A as (s2 & f' & -> & Hf & R2). clear R1.
  set (k2 := length (if h_meta mask then meta_bits t f else [])) in *.
  destruct (h_mode mask) eqn:E3.
  - specialize (Hmo eq_refl). destruct Hmo as [V EN]. pose proof (C19_code_size p V) as CS.
    assert (HE : -2 ^ 31 <= minexp p < 2 ^ 31 - 16495) by (destruct EN as (_ & _ & EN & _); lia).
    specialize (CS HE). pose proof (proj2 (C19_round_trip p q V) EN) as RT. pose proof (valid_mode p V) as NN.
    unfold mode_bits in R2. unfold header_bits. rewrite E3. rewrite !app_length. fold k1 k2. unfold mode_bits.
    destruct (Z.leb_spec (stream_mode p) 4094) as [Hs|Hs].
    + destruct (read_number _ _ _ _ _ _ R2 ltac:(lia)) as (s3 & E & R3). unfold ZFP_MODE_SHORT_BITS. rewrite E.
      rewrite Z.mod_small by (change (2 ^ Z.of_nat 12) with 4096; lia). unfold ZFP_MODE_SHORT_MAX.
      destruct (Z.ltb_spec 4094 (stream_mode p)) as [|_]; [lia|]. rewrite RT. rewrite number_length.
      destruct (compression_mode p); [congruence| | | |]; (split; [lia|]; split; [replace (pos + (k1 + k2 + 12))%nat with (pos + k1 + k2 + 12)%nat by lia; exact R3|auto]).
    + destruct CS as [CS|[CS CM]]; [lia|]. rewrite number_zbits in R2.
      change 64%nat with (12 + 52)%nat in R2. rewrite zbits_app, <- app_assoc, <- !number_zbits in R2.
      destruct (read_number _ _ _ _ _ _ R2 ltac:(lia)) as (s3 & E & R3). unfold ZFP_MODE_SHORT_BITS. rewrite E. 
      change (2 ^ Z.of_nat 12) with 4096 in *. rewrite CM. unfold ZFP_MODE_SHORT_MAX. change (4094 <? 4095) with true. cbn [negb].
      destruct (read_number _ _ _ _ _ _ R3 ltac:(lia)) as (s4 & E4 & R4). unfold ZFP_MODE_LONG_BITS. change (64 - 12)%nat with 52%nat. rewrite E4.
      assert (u64 (4095 + u64 (Z.shiftl ((stream_mode p / 4096) mod 2 ^ Z.of_nat 52) (Z.of_nat 12))) = stream_mode p) as ->.
      { unfold u64. rewrite shl by lia. pose proof (Z.div_mod (stream_mode p) 4096 ltac:(lia)) as DM. rewrite CM in DM.
        rewrite (Z.mod_small (stream_mode p / 4096)) by (change (2 ^ Z.of_nat 52) with 4503599627370496; lia).
        change (2 ^ Z.of_nat 12) with 4096. rewrite (Z.mod_small (_ * _)) by lia. rewrite Z.mod_small by lia. lia. }
      rewrite RT, number_length.
      destruct (compression_mode p); [congruence| | | |]; (split; [lia|]; split; [replace (pos + (k1 + k2 + 12 + 52))%nat with (pos + k1 + k2 + 12 + 52)%nat by lia; exact R4|auto]).
  - unfold header_bits. rewrite E3. rewrite !app_length. fold k1 k2. cbn [length app] in *. split; [lia|]. split; [rewrite Nat.add_assoc; exact R2|]. auto.
Qed.
End Header.
