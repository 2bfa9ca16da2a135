(** Properties of the zfp API: compression modes and their encoding, headers, size bound,
    promotion of small integers (C15, C18-C21). *)
From Coq Require Import ZArith List Bool Arith Lia.
From Verif Require Import ListAux Bits Bitstream BitstreamProofs BitstreamProofs2 StreamSpec StreamRuns.
From Verif Require Import EmbedSpec ZfpCodec ZfpCodecProofs ZfpCodecProofs2 EmbedRuns ZfpXform BlockSpec BlockProofs PropertiesZfpEmbed PropertiesZfpBlock.
From Verif Require Import XformProofs XformProofs2 ZfpArray ArraySpec ArrayProofs ArrayProofs2 ArrayProofs3 ArrayProofs4 PropertiesZfpArray.
From Verif Require Import ZfpFloat FloatProofs CodecArray FloatProofs2 FloatSpec PropertiesZfpFloat ZfpApi.
Import ListNotations.
Local Open Scope Z_scope.
Ltac Zify.zify_post_hook ::= Z.to_euclidean_division_equations.

(* ------------------------------------------------------------------------------------ *)
(** * C19: the compression mode round trip *)

(** parameters the API accepts *)
Definition valid (p : params) : Prop := 0 <= minbits p <= maxbits p /\ 1 <= maxprec p <= 64.

(** parameters the 12- or 64-bit code can express: each in its field, and where the code
    drops parameters, these have the values the decoder assumes *)
Definition encodable (p : params) : Prop :=
  1 <= minbits p /\ maxbits p <= 32768 /\ -16495 <= minexp p <= 16272 /\
  (minbits p = maxbits p -> maxbits p <= 2048 -> maxprec p = 64 -> minexp p <= -1074 -> minexp p = -1074) /\
  (minbits p = 1 -> 16651 <= maxbits p -> minexp p < -1074 -> False) /\
  (minbits p = 1 -> 16651 < maxbits p -> minexp p = -1074 -> False) /\
  (minbits p = 1 -> 16651 < maxbits p -> maxprec p = 64 -> -1074 < minexp p <= 843 -> False).

Lemma shl v k : 0 <= k -> Z.shiftl v k = v * 2 ^ k.
Proof. intros. apply Z.shiftl_mul_pow2. assumption. Qed.
Lemma shr v k : 0 <= k -> Z.shiftr v k = v / 2 ^ k.
Proof. intros. apply Z.shiftr_div_pow2. assumption. Qed.
Lemma land_mask v k : 0 <= k -> Z.land v (2 ^ k - 1) = v mod 2 ^ k.
Proof. intros. rewrite <- (Z.land_ones v k) by assumption. f_equal. rewrite Z.ones_equiv. lia. Qed.

Lemma long_mode_value p : 
  long_mode p = Z.max 0 (Z.min (minexp p + 16495) 32767) * 2 ^ 49 + (Z.max 1 (Z.min (maxprec p) 128) - 1) * 2 ^ 42 +
    (Z.max 1 (Z.min (maxbits p) 32768) - 1) * 2 ^ 27 + (Z.max 1 (Z.min (minbits p) 32768) - 1) * 2 ^ 12 + 4095.
Proof.
  unfold long_mode, u64. cbv zeta. rewrite !shl by lia.
  set (a := Z.max 0 (Z.min (minexp p + 16495) 32767)). set (b := Z.max 1 (Z.min (maxprec p) 128) - 1).
  set (c := Z.max 1 (Z.min (maxbits p) 32768) - 1). set (d := Z.max 1 (Z.min (minbits p) 32768) - 1).
  assert (0 <= a <= 32767) by lia. assert (0 <= b <= 127) by lia. assert (0 <= c <= 32767) by lia. assert (0 <= d <= 32767) by lia.
  clearbody a b c d.
  change (2 ^ 7) with 128. change (2 ^ 15) with 32768. change (2 ^ 12) with 4096. change (2 ^ 64) with 18446744073709551616.
  change (2 ^ 49) with 562949953421312. change (2 ^ 42) with 4398046511104. change (2 ^ 27) with 134217728.
  rewrite !(Z.mod_small _ 18446744073709551616) by (rewrite ?Z.mod_small by lia; rewrite ?Z.mod_small by lia; lia). lia.
Qed.

Lemma set_mode_long old a b c d : 0 <= a <= 32767 -> 0 <= b <= 127 -> 0 <= c <= 32767 -> 0 <= d <= 32767 ->
  set_mode old (a * 2 ^ 49 + b * 2 ^ 42 + c * 2 ^ 27 + d * 2 ^ 12 + 4095) =
  let '(ok, p) := set_params old (d + 1) (c + 1) (b + 1) (a - 16495) in (if ok then compression_mode p else mode_null, p).
Proof.
  intros Ha Hb Hc Hd. unfold set_mode. set (m := a * 2 ^ 49 + b * 2 ^ 42 + c * 2 ^ 27 + d * 2 ^ 12 + 4095).
  destruct (Z.leb_spec m ZFP_MODE_SHORT_MAX) as [H|_]; [unfold m, ZFP_MODE_SHORT_MAX in H; lia|].
  change 0x7fff with (2 ^ 15 - 1). change 0x7f with (2 ^ 7 - 1). rewrite !land_mask by lia. rewrite !shr by lia. unfold uint.
  assert (E1 : m / 2 ^ 12 = a * 2 ^ 37 + b * 2 ^ 30 + c * 2 ^ 15 + d).
  { symmetry. apply (Z.div_unique m (2 ^ 12) _ 4095); unfold m; lia. }
  assert (E2 : m / 2 ^ 12 / 2 ^ 15 = a * 2 ^ 22 + b * 2 ^ 15 + c).
  { rewrite E1. symmetry. apply (Z.div_unique _ (2 ^ 15) _ d); lia. }
  assert (E3 : m / 2 ^ 12 / 2 ^ 15 / 2 ^ 15 = a * 2 ^ 7 + b).
  { rewrite E2. symmetry. apply (Z.div_unique _ (2 ^ 15) _ c); lia. }
  assert (E4 : m / 2 ^ 12 / 2 ^ 15 / 2 ^ 15 / 2 ^ 7 = a).
  { rewrite E3. symmetry. apply (Z.div_unique _ (2 ^ 7) _ b); lia. }
  rewrite E4, E3, E2, E1.
  assert (M : forall v k x, 0 <= k <= 32 -> 0 <= x < 2 ^ k -> (v - x) mod 2 ^ k = 0 -> (v mod 2 ^ 32) mod 2 ^ k = x).
  { intros v k x Hk Hx Hm.
    assert (Q : 2 ^ 32 = 2 ^ (32 - k) * 2 ^ k) by (rewrite <- Z.pow_add_r by lia; f_equal; lia).
    rewrite Q.
    pose proof (Z.pow_pos_nonneg 2 k ltac:(lia) ltac:(lia)). pose proof (Z.pow_pos_nonneg 2 (32 - k) ltac:(lia) ltac:(lia)).
    rewrite (Z.mul_comm (2 ^ (32 - k))), Z.rem_mul_r by lia. rewrite Z.mul_comm, Z_mod_plus_full.
    rewrite Zmod_mod. apply Z.mod_divide in Hm; [|lia]. destruct Hm as [q Hq]. replace v with (x + q * 2 ^ k) by lia.
    rewrite Z_mod_plus_full. apply Z.mod_small. exact Hx. }
  rewrite (M _ 15 d), (M _ 15 c), (M _ 7 b), (M a 15 a); try lia.
  rewrite int32_id by lia. reflexivity.
Qed.

Lemma compression_mode_spec p : valid p ->
  compression_mode p =
    if (minbits p =? 1) && (maxbits p =? 16651) && (maxprec p =? 64) && (minexp p =? -1074) then mode_expert
    else if (minbits p =? maxbits p) && (1 <=? maxbits p) && (maxbits p <=? 16651) && (64 <=? maxprec p) && (minexp p <=? -1074) then mode_fixed_rate
    else if (minbits p <=? 1) && (16651 <=? maxbits p) && (minexp p <=? -1074) then mode_fixed_precision
    else if (minbits p <=? 1) && (16651 <=? maxbits p) && (64 <=? maxprec p) then mode_fixed_accuracy
    else mode_expert.
Proof.
  intros [H1 H2]. unfold compression_mode, ZFP_MIN_BITS, ZFP_MAX_BITS, ZFP_MAX_PREC, ZFP_MIN_EXP.
  destruct (Z.ltb_spec (maxbits p) (minbits p)); [lia|]. destruct (Z.ltb_spec 0 (maxprec p)); [|lia]. destruct (Z.leb_spec (maxprec p) 64); [|lia].
  destruct (Z.leb_spec 1 (maxprec p)); [|lia]. cbn [andb orb negb].
  destruct (_ && _ && _ && _); [reflexivity|]. destruct (_ && _ && _ && _ && _); [reflexivity|].
  rewrite andb_true_r. destruct (_ && _ && (minexp p <=? -1074)) eqn:E; [reflexivity|].
  destruct (Z.leb_spec (minbits p) 1), (Z.leb_spec 16651 (maxbits p)), (Z.leb_spec 64 (maxprec p)), (Z.leb_spec (minexp p) (-1074)), (Z.leb_spec (-1074) (minexp p));
    cbn [andb] in *; try discriminate; try reflexivity; lia.
Qed.

Lemma params_eq p a b c d : minbits p = a -> maxbits p = b -> maxprec p = c -> minexp p = d -> mk_params a b c d = p.
Proof. intros; subst; destruct p; reflexivity. Qed.

Lemma set_params_valid old a b c d : 0 <= a <= b -> 1 <= c <= 64 -> set_params old a b c d = (true, mk_params a b c d).
Proof.
  intros H1 H2. unfold set_params. destruct (Z.ltb_spec b a); [lia|]. destruct (Z.ltb_spec 0 c); [|lia]. destruct (Z.leb_spec c 64); [|lia]. reflexivity.
Qed.

Lemma valid_mode p : valid p -> compression_mode p <> mode_null.
Proof.
  intros H. rewrite (compression_mode_spec p H). repeat match goal with |- context [if ?c then _ else _] => destruct c end; discriminate.
Qed.

(** what the reader of the code obtains *)
Definition decoded (p : params) : params :=
  match compression_mode p with
  | mode_fixed_rate => if maxbits p <=? 2048 then mk_params (maxbits p) (maxbits p) 64 (-1074)
                       else mk_params (Z.max 1 (Z.min (minbits p) 32768)) (Z.max 1 (Z.min (maxbits p) 32768)) (maxprec p) (Z.max (-16495) (Z.min (minexp p) 16272))
  | mode_fixed_precision => mk_params 1 16651 (maxprec p) (-1074)
  | mode_fixed_accuracy => if minexp p <=? 843 then mk_params 1 16651 64 (minexp p)
                           else mk_params (Z.max 1 (Z.min (minbits p) 32768)) (Z.max 1 (Z.min (maxbits p) 32768)) (maxprec p) (Z.max (-16495) (Z.min (minexp p) 16272))
  | _ => mk_params (Z.max 1 (Z.min (minbits p) 32768)) (Z.max 1 (Z.min (maxbits p) 32768)) (maxprec p) (Z.max (-16495) (Z.min (minexp p) 16272))
  end.

Lemma set_long old p : valid p ->
  set_mode old (long_mode p) = (compression_mode (mk_params (Z.max 1 (Z.min (minbits p) 32768)) (Z.max 1 (Z.min (maxbits p) 32768)) (maxprec p) (Z.max (-16495) (Z.min (minexp p) 16272))),
    mk_params (Z.max 1 (Z.min (minbits p) 32768)) (Z.max 1 (Z.min (maxbits p) 32768)) (maxprec p) (Z.max (-16495) (Z.min (minexp p) 16272))).
Proof.
  intros [V1 V2]. rewrite long_mode_value, set_mode_long by lia.
  rewrite set_params_valid by lia.
  replace (Z.max 0 (Z.min (minexp p + 16495) 32767) - 16495) with (Z.max (-16495) (Z.min (minexp p) 16272)) by lia.
  replace (Z.max 1 (Z.min (maxprec p) 128) - 1 + 1) with (maxprec p) by lia. rewrite !Z.sub_add. reflexivity.
Qed.

Lemma set_decoded old p : valid p -> set_mode old (stream_mode p) = (compression_mode (decoded p), decoded p).
Proof.
  intros V. pose proof V as [V1 V2]. unfold stream_mode, decoded. pose proof (compression_mode_spec p V) as E.
  pose proof (valid_mode p V) as N.
  destruct (compression_mode p) eqn:M; try apply set_long; auto.
  - (* rate *)
    destruct (Z.leb_spec (maxbits p) 2048) as [B|B]; [|apply set_long; auto].
    assert (1 <= maxbits p).
    { destruct (Z.leb_spec 1 (maxbits p)); [lia|]. revert E. rewrite andb_false_r. cbn [andb].
      repeat match goal with |- context [if ?c then _ else _] => destruct c end; discriminate. }
    unfold set_mode, ZFP_MODE_SHORT_MAX. destruct (Z.leb_spec (maxbits p - 1) 4094); [|lia]. destruct (Z.ltb_spec (maxbits p - 1) 2048); [|lia].
    rewrite Z.sub_add. rewrite set_params_valid by (unfold ZFP_MAX_PREC; lia). reflexivity.
  - destruct (Z.leb_spec (maxprec p) 128) as [B|B]; [|lia].
    unfold set_mode, ZFP_MODE_SHORT_MAX. destruct (Z.leb_spec (maxprec p - 1 + 2048) 4094); [|lia].
    destruct (Z.ltb_spec (maxprec p - 1 + 2048) 2048); [lia|]. destruct (Z.ltb_spec (maxprec p - 1 + 2048) (2048 + 128)); [|lia].
    replace (maxprec p - 1 + 2048 + 1 - 2048) with (maxprec p) by lia.
    rewrite set_params_valid by (unfold ZFP_MIN_BITS, ZFP_MAX_BITS; lia). reflexivity.
  - destruct (Z.leb_spec (minexp p) 843) as [B|B]; [|apply set_long; auto].
    assert (-1074 <= minexp p).
    { destruct (Z.leb_spec (minexp p) (-1074)); [|lia]. revert E.
      destruct (Z.leb_spec (minbits p) 1), (Z.leb_spec 16651 (maxbits p)), (Z.leb_spec 64 (maxprec p)); rewrite ?andb_true_r, ?andb_false_r; cbn [andb];
      repeat match goal with |- context [if ?c then _ else _] => destruct c end; discriminate. }
    unfold set_mode, ZFP_MODE_SHORT_MAX, ZFP_MIN_EXP. destruct (Z.leb_spec (minexp p - -1074 + (2048 + 128 + 1)) 4094); [|lia].
    destruct (Z.ltb_spec (minexp p - -1074 + (2048 + 128 + 1)) 2048); [lia|]. destruct (Z.ltb_spec (minexp p - -1074 + (2048 + 128 + 1)) (2048 + 128)); [lia|].
    unfold uint. rewrite Z.mod_small by lia.
    replace (minexp p - -1074 + (2048 + 128 + 1) + -1074 - (2048 + 128 + 1)) with (minexp p) by lia. rewrite int32_id by lia.
    rewrite set_params_valid by (unfold ZFP_MIN_BITS, ZFP_MAX_BITS, ZFP_MAX_PREC; lia). reflexivity.
Qed.

Ltac Zify.zify_post_hook ::= idtac.
Lemma decoded_iff p : valid p -> decoded p = p <-> encodable p.
Proof.
  intros V. pose proof V as [V1 V2].
  unfold decoded. rewrite (compression_mode_spec p V). unfold encodable. destruct p as [a b c d]. cbn [minbits maxbits maxprec minexp] in *. clear V.
  assert (PE : forall a' b' c' d', mk_params a' b' c' d' = mk_params a b c d <-> a' = a /\ b' = b /\ c' = c /\ d' = d).
  { intros. split; [intros E; assert (E1 := f_equal minbits E); assert (E2 := f_equal maxbits E); assert (E3 := f_equal maxprec E); assert (E4 := f_equal minexp E); auto
                   |intros (-> & -> & -> & ->); reflexivity]. }
  destruct (Z.eqb_spec d (-1074)); [|destruct (Z.leb_spec d (-1074)); [|destruct (Z.leb_spec d 843)]];
  (destruct (Z.eqb_spec c 64); [|assert (c < 64) by lia]);
  (destruct (Z.eqb_spec b 16651); [|destruct (Z.leb_spec 16651 b)]);
  (destruct (Z.eqb_spec a b)); (destruct (Z.eqb_spec a 1)); try lia;
  repeat match goal with
    | |- context [?x <=? ?y] => first [replace (x <=? y) with true by (symmetry; apply Z.leb_le; lia) | replace (x <=? y) with false by (symmetry; apply Z.leb_gt; lia) | destruct (Z.leb_spec x y)]
    end; cbn [andb]; rewrite PE; clear PE;
  (split; [intros E; conjs; intros; lia|intros (E1 & E2 & E3 & E4 & E5 & E6 & E7);
    repeat match goal with H : ?Q -> _ |- _ => first [assert Q as HQ by lia; specialize (H HQ); clear HQ | clear H] end; conjs; lia]).
Qed.
Ltac Zify.zify_post_hook ::= Z.to_euclidean_division_equations.

(** encoding valid parameters and decoding the code on any stream restores them and their
    mode exactly when they are encodable *)
Theorem C19_round_trip : forall p old, valid p ->
  (set_mode old (stream_mode p) = (compression_mode p, p) <-> encodable p).
Proof.
  intros p old V. rewrite (set_decoded old p V). rewrite <- (decoded_iff p V).
  split; [intros E; congruence|intros E; rewrite E; reflexivity].
Qed.

(** whatever code is given, the mode reported is the mode of the parameters now set, these
    are valid, and a rejected code changes nothing *)
Theorem C19_set_mode : forall old code, 0 <= code < 2 ^ 64 ->
  let '(m, p) := set_mode old code in
  (m = mode_null /\ p = old) \/ (m <> mode_null /\ m = compression_mode p /\ valid p).
Proof.
  intros old code H. unfold set_mode.
  set (q := if code <=? ZFP_MODE_SHORT_MAX then _ else _).
  assert (Q : let '(mb, xb, mp, me) := q in 0 <= mb).
  { unfold q. destruct (code <=? ZFP_MODE_SHORT_MAX).
    - destruct (code <? 2048); [lia|]. destruct (code <? 2048 + 128); unfold ZFP_MIN_BITS; lia.
    - cbv zeta. change 0x7fff with (2 ^ 15 - 1). rewrite land_mask by lia. lia. }
  destruct q as [[[mb xb] mp] me]. unfold set_params.
  destruct (Z.ltb_spec xb mb); cbn [orb]; [left; auto|]. destruct (Z.ltb_spec 0 mp), (Z.leb_spec mp 64); cbn [andb negb]; try (left; auto; fail).
  right. assert (V : valid (mk_params mb xb mp me)) by (split; cbn; lia). split; [apply valid_mode; exact V|]. auto.
Qed.

(** the code fits the 12 bits of the short form or the 64 bits of the long form *)
Theorem C19_code_size : forall p, valid p -> -2 ^ 31 <= minexp p < 2 ^ 31 - 16495 ->
  0 <= stream_mode p <= 4094 \/ (4095 <= stream_mode p < 2 ^ 64 /\ stream_mode p mod 4096 = 4095).
Proof.
  intros p V HE. pose proof V as [V1 V2].
  assert (L : 4095 <= long_mode p < 2 ^ 64 /\ long_mode p mod 4096 = 4095).
  { rewrite long_mode_value. set (a := Z.max 0 _). set (b := Z.max 1 _ - 1). set (c := Z.max 1 (Z.min (maxbits p) _) - 1). set (d := Z.max 1 (Z.min (minbits p) _) - 1).
    assert (0 <= a <= 32767) by lia. assert (0 <= b <= 127) by lia. assert (0 <= c <= 32767) by lia. assert (0 <= d <= 32767) by lia. clearbody a b c d.
    split; [lia|]. replace (a * 2 ^ 49 + b * 2 ^ 42 + c * 2 ^ 27 + d * 2 ^ 12 + 4095) with (4095 + (a * 2 ^ 37 + b * 2 ^ 30 + c * 2 ^ 15 + d) * 4096) by lia.
    rewrite Z_mod_plus_full. reflexivity. }
  unfold stream_mode. pose proof (compression_mode_spec p V) as E.
  destruct (compression_mode p) eqn:M; auto.
  - destruct (Z.leb_spec (maxbits p) 2048); [|auto]. left.
    assert (1 <= maxbits p); [|lia].
    { destruct (Z.leb_spec 1 (maxbits p)); [lia|]. revert E. rewrite andb_false_r. cbn [andb].
      repeat match goal with |- context [if ?c then _ else _] => destruct c end; discriminate. }
  - destruct (Z.leb_spec (maxprec p) 128); [left; lia|auto].
  - destruct (Z.leb_spec (minexp p) 843); [|auto]. left. unfold ZFP_MIN_EXP.
    assert (-1074 <= minexp p); [|lia].
    { destruct (Z.leb_spec (minexp p) (-1074)); [|lia]. revert E.
      destruct (Z.leb_spec (minbits p) 1), (Z.leb_spec 16651 (maxbits p)), (Z.leb_spec 64 (maxprec p)); rewrite ?andb_true_r, ?andb_false_r; cbn [andb];
      repeat match goal with |- context [if ?c then _ else _] => destruct c end; discriminate. }
Qed.

(** valid parameters that do not survive: an expert setting whose smallest bit plane is
    below -1074 comes back with bit plane -1074 *)
Theorem C19_all_valid_refuted : exists p, valid p /\ snd (set_mode p (stream_mode p)) <> p.
Proof. exists (mk_params 100 100 64 (-1100)). split; [split; cbn; lia|]. vm_compute. discriminate. Qed.
Print Assumptions C19_round_trip.
Print Assumptions C19_set_mode.
Print Assumptions C19_code_size.
Print Assumptions C19_all_valid_refuted.

Example C19_nonvacuous :
  Forall (fun p => valid p /\ encodable p)
    [default_params; mk_params 128 128 64 (-1074); mk_params 1 16651 20 (-1074); mk_params 1 16651 64 (-10); mk_params 10 3000 17 (-200)] /\
  map stream_mode [mk_params 128 128 64 (-1074); mk_params 1 16651 20 (-1074); mk_params 1 16651 64 (-10)] = [127; 2067; 3241] /\
  map compression_mode [default_params; mk_params 128 128 64 (-1074); mk_params 1 16651 20 (-1074); mk_params 1 16651 64 (-10); mk_params 10 3000 17 (-200)] =
    [mode_expert; mode_fixed_rate; mode_fixed_precision; mode_fixed_accuracy; mode_expert].
Proof.
  split; [|vm_compute; auto]. unfold default_params, ZFP_MIN_BITS, ZFP_MAX_BITS, ZFP_MAX_PREC, ZFP_MIN_EXP.
  repeat match goal with |- Forall _ (_ :: _) => apply Forall_cons; [split; [split; cbn; lia|unfold encodable; cbn; conjs; intros; lia]|] end.
  apply Forall_nil.
Qed.

(* ------------------------------------------------------------------------------------ *)
(** * C20: setting a mode *)

(** fixed precision: the precision returned is the one set, between 1 and 64, the request
    itself when it is in that range; the stream reports fixed-precision mode, except that 64
    bit planes are the default parameters, which count as expert mode *)
Theorem C20_set_precision : forall prec, 0 <= prec < 2 ^ 32 ->
  let '(r, p) := set_precision prec in
  valid p /\ maxprec p = r /\ (1 <= prec <= 64 -> r = prec) /\ (prec = 0 \/ 64 < prec -> r = 64) /\
  minbits p = 1 /\ maxbits p = 16651 /\ minexp p = -1074 /\
  compression_mode p = (if r =? 64 then mode_expert else mode_fixed_precision).
Proof.
  intros prec H. unfold set_precision, ZFP_MAX_PREC, ZFP_MIN_BITS, ZFP_MAX_BITS, ZFP_MIN_EXP.
  destruct (Z.eqb_spec prec 0) as [->|N].
  - vm_compute. repeat split; try discriminate; auto; intros; tauto || lia.
  - set (r := Z.min prec 64). assert (1 <= r <= 64) by lia.
    assert (V : valid (mk_params 1 16651 r (-1074))) by (split; cbn; lia).
    split; [exact V|]. cbn [maxprec minbits maxbits minexp]. conjs; auto; try lia.
    rewrite (compression_mode_spec _ V). cbn [maxprec minbits maxbits minexp].
    change (1 =? 1) with true. change (16651 =? 16651) with true. change (-1074 =? -1074) with true. change (1 =? 16651) with false.
    cbn [andb]. rewrite andb_true_r. destruct (r =? 64); reflexivity.
Qed.

(** fixed accuracy: the tolerance returned is the largest power of two not above the request
    and is the exponent set *)
Theorem C20_set_accuracy : forall k, 0 < k < 2 ^ (1024 + 1074) ->
  let '(r, p) := set_accuracy k in
  valid p /\ r <= k < 2 * r /\ r = 2 ^ (minexp p + 1074) /\ -1074 <= minexp p <= 1023 /\
  minbits p = 1 /\ maxbits p = 16651 /\ maxprec p = 64 /\
  compression_mode p = (if minexp p =? -1074 then mode_expert else mode_fixed_accuracy).
Proof.
  intros k H. unfold set_accuracy, ZFP_MAX_PREC, ZFP_MIN_BITS, ZFP_MAX_BITS, ZFP_MIN_EXP.
  destruct (Z.ltb_spec 0 k); [|lia]. replace (Z.log2 k + 1 - 1074 - 1) with (Z.log2 k - 1074) by lia.
  pose proof (Z.log2_spec k ltac:(lia)) as [L1 L2]. pose proof (Z.log2_nonneg k).
  assert (LU : Z.log2 k < 1024 + 1074) by (apply Z.log2_lt_pow2; lia).
  cbn [minexp maxprec minbits maxbits]. rewrite Z.pow_succ_r in L2 by lia.
  replace (Z.log2 k - 1074 + 1074) with (Z.log2 k) by lia.
  assert (V : valid (mk_params 1 16651 64 (Z.log2 k - 1074))) by (split; cbn; lia).
  split; [exact V|]. conjs; auto; try lia.
  rewrite (compression_mode_spec _ V). cbn [maxprec minbits maxbits minexp].
  destruct (Z.eqb_spec (Z.log2 k - 1074) (-1074)) as [->|]; [reflexivity|]. change (1 =? 16651) with false. cbn [andb Z.eqb Z.leb Z.compare Pos.eqb Pos.compare Pos.compare_cont].
  destruct (Z.leb_spec (Z.log2 k - 1074) (-1074)); [lia|]. reflexivity.
Qed.

(** a tolerance of 0 restores the default parameters *)
Theorem C20_zero_tolerance : set_accuracy 0 = (0, default_params).
Proof. reflexivity. Qed.

Lemma ldiff_word W v : word_size W -> 0 <= v -> Z.ldiff v (Z.of_nat W - 1) = v - v mod Z.of_nat W.
Proof.
  intros HW Hv.
  assert (H : exists w, 0 <= w /\ Z.of_nat W = 2 ^ w).
  { destruct HW as [-> |[-> |[-> | ->]]]; [exists 3|exists 4|exists 5|exists 6]; split; reflexivity || lia. }
  destruct H as (w & H0 & ->). replace (2 ^ w - 1) with (Z.ones w) by (rewrite Z.ones_equiv; lia).
  rewrite Z.ldiff_ones_r by lia. rewrite shl, shr by lia. pose proof (Z.pow_pos_nonneg 2 w ltac:(lia) ltac:(lia)).
  pose proof (Z.div_mod v (2 ^ w) ltac:(lia)). lia.
Qed.

Lemma rate_bits X : 0 <= X < 2 ^ 1106 -> exists b, rne 53 X / 2 ^ 1074 = b /\ 0 <= b /\ - 2 ^ 1052 - 2 ^ 1074 < b * 2 ^ 1074 - X <= 2 ^ 1052.
Proof.
  intros H. exists (rne 53 X / 2 ^ 1074). split; [reflexivity|].
  pose proof (rne_error 53 X 1106 ltac:(lia) ltac:(lia)) as R. change (1106 - 53) with (1052 + 1) in R. rewrite Z.pow_add_r in R by lia.
  assert (P1 : 0 < 2 ^ 1074) by (apply Z.pow_pos_nonneg; lia).
  assert (RN : 0 <= rne 53 X).
  { unfold rne. cbv zeta. apply Z.mul_nonneg_nonneg; [lia|]. apply Z.mul_nonneg_nonneg; [|apply Z.pow_nonneg; lia].
    pose proof (Z.div_pos (Z.abs X) (2 ^ Z.max 0 (Z.log2 (Z.abs X) + 1 - 53)) ltac:(lia) ltac:(apply Z.pow_pos_nonneg; lia)).
    destruct (_ || _); lia. }
  pose proof (Z.div_mod (rne 53 X) (2 ^ 1074) ltac:(lia)) as D. pose proof (Z.mod_pos_bound (rne 53 X) (2 ^ 1074) P1) as B.
  pose proof (Z.div_pos (rne 53 X) (2 ^ 1074) RN P1) as DP.
  set (q := rne 53 X / 2 ^ 1074) in *. set (m := rne 53 X mod 2 ^ 1074) in *. set (r := rne 53 X) in *.
  set (A := 2 ^ 1074) in *. set (Bq := 2 ^ 1052) in *. clearbody q m r A Bq. change (2 ^ 1) with 2 in R. nia.
Qed.

(** fixed rate: with the rate given as k / 2^1074 bits per value, the number of bits per
    block is the nearest integer to 4^dims * rate (up to the rounding of the addition of
    1/2), at least the size of an exponent for floating-point types; with write random
    access it is rounded up to the next multiple of the word size *)
Theorem C20_set_rate : forall W k t dims wra,
  word_size W -> (1 <= dims <= 4)%nat -> 0 <= k -> 4 ^ Z.of_nat dims * k < 2 ^ (31 + 1074) ->
  exists b0 bits p, set_rate W k t dims wra = Some (bits, p) /\
    Z.abs (b0 * 2 ^ 1074 - 4 ^ Z.of_nat dims * k) <= 2 ^ 1073 + 2 ^ 1052 /\
    let b1 := Z.max b0 (match t with t_float => 1 + 8 | t_double => 1 + 11 | _ => 0 end) in
    (wra = false -> bits = b1) /\
    (wra = true -> b1 <= bits < b1 + Z.of_nat W /\ bits mod Z.of_nat W = 0) /\
    p = mk_params bits bits 64 (-1074) /\ valid p /\
    (1 <= bits <= 16651 -> compression_mode p = mode_fixed_rate).
Proof.
  intros W k t dims wra HW HD Hk Hlim. unfold set_rate.
  replace (2 ^ (2 * Z.of_nat dims)) with (4 ^ Z.of_nat dims) by (change 4 with (2 ^ 2); rewrite <- Z.pow_mul_r by lia; reflexivity).
  set (N := 4 ^ Z.of_nat dims * k) in *.
  assert (N0 : 0 <= N) by (unfold N; apply Z.mul_nonneg_nonneg; [apply Z.pow_nonneg; lia|exact Hk]).
  assert (E1 : 2 ^ 1106 = 2 ^ (31 + 1074) + 2 ^ 31 * 2 ^ 1074) by (rewrite <- Z.pow_add_r by lia; change 1106 with (1 + (31 + 1074)); rewrite (Z.pow_add_r 2 1) by lia; lia).
  assert (E2 : 2 ^ 1074 = 2 ^ 1 * 2 ^ 1073) by (rewrite <- Z.pow_add_r by lia; reflexivity).
  assert (E3 : 2 ^ 1073 = 2 ^ 21 * 2 ^ 1052) by (rewrite <- Z.pow_add_r by lia; reflexivity).
  assert (E4 : 2 ^ (31 + 1074) = 2 ^ 31 * 2 ^ 1074) by (rewrite <- Z.pow_add_r by lia; reflexivity).
  assert (P1 : 0 < 2 ^ 1052) by (apply Z.pow_pos_nonneg; lia).
  destruct (rate_bits (N + 2 ^ 1073)) as (b0 & B1 & B2 & B3).
  { rewrite E1, E4 in *. change (2 ^ 31) with 2147483648 in *. lia. }
  exists b0. rewrite B1. clear B1.
  assert (BL : b0 <= 2 ^ 31 + 1).
  { rewrite E4, E3, E2 in *. set (h := 2 ^ 1052) in *. clearbody h. change (2 ^ 31) with 2147483648 in *. change (2 ^ 1) with 2 in *. change (2 ^ 21) with 2097152 in *. nia. }
  assert (AB : Z.abs (b0 * 2 ^ 1074 - N) <= 2 ^ 1073 + 2 ^ 1052).
  { rewrite E2 in *. change (2 ^ 1) with 2 in *. lia. }
  destruct (Z.leb_spec (2 ^ 32) b0); [change (2 ^ 32) with 4294967296 in *; change (2 ^ 31) with 2147483648 in *; lia|].
  set (b1 := Z.max b0 (match t with t_float => 1 + 8 | t_double => 1 + 11 | _ => 0 end)).
  assert (EB : match t with t_float => Z.max b0 9 | t_double => Z.max b0 12 | _ => b0 end = b1) by (unfold b1; destruct t; lia).
  rewrite EB. assert (BR : 0 <= b1 <= 2 ^ 31 + 1) by (unfold b1; change (2 ^ 31) with 2147483648 in *; destruct t; lia).
  assert (WB : 8 <= Z.of_nat W <= 64) by (destruct HW as [-> |[-> |[-> | ->]]]; cbn; lia).
  set (bits := if wra then _ else _).
  assert (BW : (wra = false -> bits = b1) /\ (wra = true -> b1 <= bits < b1 + Z.of_nat W /\ bits mod Z.of_nat W = 0)).
  { unfold bits. split; intros ->; [reflexivity|]. unfold uint. rewrite (Z.mod_small _ (2 ^ 32)) by (change (2 ^ 32) with 4294967296; change (2 ^ 31) with 2147483648 in *; lia).
    rewrite ldiff_word by (auto; lia). set (v := b1 + Z.of_nat W - 1).
    pose proof (Z.mod_pos_bound v (Z.of_nat W) ltac:(lia)). split; [unfold v in *; lia|].
    rewrite Zminus_mod_idemp_r, Z.sub_diag. apply Zmod_0_l. }
  exists bits, (mk_params bits bits 64 (-1074)). split; [reflexivity|]. split; [exact AB|].
  split; [apply BW|]. split; [apply BW|]. split; [reflexivity|].
  assert (V : valid (mk_params bits bits 64 (-1074))).
  { split; cbn; [|lia]. destruct BW as [W1 W2]. destruct wra; [specialize (W2 eq_refl)|specialize (W1 eq_refl)]; lia. }
  split; [exact V|]. intros BB. rewrite (compression_mode_spec _ V). cbn [minbits maxbits maxprec minexp].
  destruct (Z.eqb_spec bits 1), (Z.eqb_spec bits 16651); try lia; cbn [andb]; rewrite Z.eqb_refl;
    destruct (Z.leb_spec 1 bits); try lia; destruct (Z.leb_spec bits 16651); try lia; reflexivity.
Qed.
Print Assumptions C20_set_precision.
Print Assumptions C20_set_accuracy.
Print Assumptions C20_zero_tolerance.
Print Assumptions C20_set_rate.

(** the mode set is not always the mode reported: full precision counts as expert mode *)
Theorem C20_mode_reported_refuted : compression_mode (snd (set_precision 64)) = mode_expert.
Proof. reflexivity. Qed.
Print Assumptions C20_mode_reported_refuted.

(** a rate of 7.5 bits per value for 2D doubles with write random access: 120 bits are
    rounded up to 128 *)
Example C20_nonvacuous :
  set_rate 64 (15 * 2 ^ 1073) t_double 2 true = Some (128, mk_params 128 128 64 (-1074)) /\
  set_rate 64 (15 * 2 ^ 1073) t_double 2 false = Some (120, mk_params 120 120 64 (-1074)) /\
  set_rate 64 1 t_float 1 false = Some (9, mk_params 9 9 64 (-1074)) /\
  set_precision 20 = (20, mk_params 1 16651 20 (-1074)) /\
  set_accuracy (5 * 2 ^ 1064) = (2 ^ 1066, mk_params 1 16651 64 (-8)).
Proof. vm_compute. auto. Qed.

(* ------------------------------------------------------------------------------------ *)
(** * C21: promotion of 8- and 16-bit integers *)
Definition int_range (lo hi : Z) (b : list Z) : Prop := Forall (fun v => lo <= v <= hi) b.

(** promoted values keep one bit of headroom, so the block can be compressed, and demotion
    restores them exactly *)
Theorem C21_round_trip : forall b,
  (int_range (-128) 127 b -> bounded (2 ^ 30) (promote_int8 b) /\ demote_int8 (promote_int8 b) = b) /\
  (int_range 0 255 b -> bounded (2 ^ 30) (promote_uint8 b) /\ demote_uint8 (promote_uint8 b) = b) /\
  (int_range (-32768) 32767 b -> bounded (2 ^ 30) (promote_int16 b) /\ demote_int16 (promote_int16 b) = b) /\
  (int_range 0 65535 b -> bounded (2 ^ 30) (promote_uint16 b) /\ demote_uint16 (promote_uint16 b) = b).
Proof.
  intros b. unfold int_range, bounded, promote_int8, promote_uint8, promote_int16, promote_uint16, demote_int8, demote_uint8, demote_int16, demote_uint16.
  rewrite !map_map. conjs; intros H; (split; [apply Forall_map; eapply Forall_impl; [|exact H]; cbv beta; intros; lia|]);
    (etransitivity; [|apply map_id]); apply map_ext_in; intros x X; rewrite Forall_forall in H; specialize (H x X); cbv beta in H; rewrite shr by lia; rewrite Z.div_mul by lia; lia.
Qed.

(** demotion of any int32 divides with rounding towards minus infinity and saturates *)
Definition clamp (lo hi v : Z) : Z := if v <? lo then lo else if hi <? v then hi else v.
Theorem C21_demote : forall b,
  demote_int8 b = map (fun i => clamp (-128) 127 (i / 2 ^ 23)) b /\
  demote_uint8 b = map (fun i => clamp 0 255 (i / 2 ^ 23 + 128)) b /\
  demote_int16 b = map (fun i => clamp (-32768) 32767 (i / 2 ^ 15)) b /\
  demote_uint16 b = map (fun i => clamp 0 65535 (i / 2 ^ 15 + 32768)) b.
Proof.
  intros b. unfold demote_int8, demote_uint8, demote_int16, demote_uint16, clamp.
  conjs; apply map_ext; intros i; rewrite shr by lia;
  match goal with |- context [if ?x <? ?y then _ else _] => destruct (Z.ltb_spec x y) end; try lia;
  match goal with |- context [if ?x <? ?y then _ else _] => destruct (Z.ltb_spec x y) end; lia.
Qed.

(** a block of bytes compressed as int32 with any error below half a unit upwards of the
    truncated bits is restored exactly: demotion ignores the 23 (15) low bits *)
Theorem C21_low_bits_free : forall i e, 0 <= e < 2 ^ 15 ->
  (-128 <= i <= 127 -> demote_int8 [i * 2 ^ 23 + e] = [i]) /\ (-32768 <= i <= 32767 -> demote_int16 [i * 2 ^ 15 + e] = [i]).
Proof.
  intros i e He. destruct (C21_demote [i * 2 ^ 23 + e]) as (-> & _). destruct (C21_demote [i * 2 ^ 15 + e]) as (_ & _ & -> & _).
  cbn [map]. unfold clamp. split; intros H.
  - replace ((i * 2 ^ 23 + e) / 2 ^ 23) with i by (apply (Z.div_unique _ _ _ e); lia).
    destruct (Z.ltb_spec i (-128)); [lia|]. destruct (Z.ltb_spec 127 i); [lia|reflexivity].
  - replace ((i * 2 ^ 15 + e) / 2 ^ 15) with i by (apply (Z.div_unique _ _ _ e); lia).
    destruct (Z.ltb_spec i (-32768)); [lia|]. destruct (Z.ltb_spec 32767 i); [lia|reflexivity].
Qed.
Print Assumptions C21_round_trip.
Print Assumptions C21_demote.
Print Assumptions C21_low_bits_free.

Example C21_nonvacuous :
  promote_uint8 [0; 128; 255; 7] = [-1073741824; 0; 1065353216; -1015021568] /\
  demote_uint8 [2147483647; -2147483648; 0; 8388608] = [255; 0; 128; 129].
Proof. vm_compute. auto. Qed.
