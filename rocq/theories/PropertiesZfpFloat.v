(** Properties of zfp's floating-point blocks and arrays: C47-C49.
    float_enc, float_dec: the block coder of one stream as [compress] and [decompress] use it. *)
From Coq Require Import ZArith List Bool Arith Lia.
From Verif Require Import ListAux Bits Bitstream BitstreamProofs BitstreamProofs2 StreamSpec StreamRuns.
From Verif Require Import EmbedSpec ZfpCodec ZfpCodecProofs ZfpCodecProofs2 EmbedRuns ZfpXform BlockSpec BlockProofs PropertiesZfpEmbed PropertiesZfpBlock.
From Verif Require Import XformProofs XformProofs2 ZfpArray ArraySpec ArrayProofs ArrayProofs2 ArrayProofs3 ArrayProofs4 PropertiesZfpArray.
From Verif Require Import ZfpFloat FloatProofs CodecArray FloatProofs2 FloatSpec.
Import ListNotations.
Local Open Scope Z_scope.

(** zfp_encode_block of one stream, as compress.c:14-45 calls it *)
Definition float_enc W P d minbits maxbits maxprec minexp (s : stream) (b : list Z) : option stream :=
  option_map snd (encode_float W P d s minbits maxbits maxprec minexp b).
(** zfp_decode_block of one stream, as decompress.c:14-45 calls it *)
Definition float_dec W P d minbits maxbits maxprec minexp (s : stream) : stream * option (list Z) :=
  let '(_, s', b) := decode_float W P d s minbits maxbits maxprec minexp in (s', b).

Lemma spec_consts P : int_width P -> unit_exp P = U P /\ max_exp P = EBIAS P /\ exp_bits P = EBITS P /\ max_digits P = digits_max P.
Proof. intros [-> | ->]; vm_compute; auto. Qed.

Lemma spec_finite P b : int_width P -> finite_values P b <-> in_range P b.
Proof. intros HP. destruct (spec_consts P HP) as (E1 & E2 & _). unfold finite_values, in_range, below. rewrite E1, E2. tauto. Qed.

Lemma spec_largest P e b : int_width P -> in_range P b -> largest P e b -> 2 - EBIAS P <= e -> exponent_block P b = e.
Proof.
  intros HP HR [L1 L2] He. destruct (spec_consts P HP) as (E1 & E2 & _).
  unfold below in L1. rewrite E1 in *. destruct (exponent_block_spec P b HP HR) as (X1 & X2 & X3 & X4).
  set (emax := exponent_block P b) in *.
  assert (HU : 1 <= e - 1 + U P /\ 0 <= emax + U P) by (unfold U in *; destruct HP as [-> | ->]; vm_compute (mant _) in *; lia).
  apply Exists_exists in L2 as (k & Hk & Hk2). rewrite Forall_forall in L1, X2.
  pose proof (L1 k Hk) as Y1. pose proof (X2 k Hk) as Y2. cbv beta in Y1, Y2.
  assert (e <= emax).
  { assert (2 ^ (e - 1 + U P) < 2 ^ (emax + U P)) as H by lia. apply Z.pow_lt_mono_r_iff in H; lia. }
  destruct X4 as (k2 & K1 & K2); [lia|]. pose proof (L1 k2 K1) as Y3. cbv beta in Y3.
  assert (2 ^ (emax - 1 + U P) < 2 ^ (e + U P)) as H0 by lia. apply Z.pow_lt_mono_r_iff in H0; lia.
Qed.

Lemma spec_codable P d b maxprec minexp : int_width P -> codable_block P d b -> float_ok P d maxprec minexp b.
Proof.
  intros HP (L & F & X). destruct (spec_consts P HP) as (E1 & E2 & _). apply spec_finite in F; [|exact HP].
  split; [exact L|]. split; [exact F|]. right. destruct X as [X|(e & X1 & X2)]; [left; exact X|right].
  rewrite (spec_largest P e b HP F X1); [lia|]. destruct HP as [-> | ->]; lia.
Qed.

Lemma below_exponent P e b : int_width P -> in_range P b -> 1 - EBIAS P <= e -> Forall (below P e) b -> exponent_block P b <= e.
Proof.
  intros HP HR He HB. destruct (spec_consts P HP) as (E1 & _).
  destruct (exponent_block_spec P b HP HR) as (X1 & X2 & X3 & X4). set (emax := exponent_block P b) in *.
  destruct (Z_le_gt_dec emax (1 - EBIAS P)); [lia|]. destruct X4 as (k & K1 & K2); [lia|].
  rewrite Forall_forall in HB. specialize (HB k K1). unfold below in HB. rewrite E1 in HB.
  assert (2 ^ (emax - 1 + U P) < 2 ^ (e + U P)) as H by lia.
  apply Z.pow_lt_mono_r_iff in H; [lia|lia|]. unfold U. destruct HP as [-> | ->]; vm_compute (mant _); lia.
Qed.

Lemma spec_accurate P d b t maxprec : int_width P -> dims d -> 0 <= maxprec -> accurate_block P d t b ->
  float_ok P d maxprec t b /\
  (exponent_block P b - t + 2 * (Z.of_nat d + 1) <= 0 \/ Forall (fun k => k = 0) b \/
   Z.of_nat P - 2 - EBIAS P <= exponent_block P b /\ exponent_block P b - t <= digits_max P /\
   Forall (fun k => Z.abs k + 2 ^ (t + U P) <= 2 ^ (exponent_block P b + U P)) b).
Proof.
  intros HP HD HM (L & F & X). destruct (spec_consts P HP) as (E1 & E2 & E3 & E4). apply spec_finite in F; [|exact HP].
  destruct X as [X|[(X1 & X2)|(e & X1 & X2 & X3 & X4)]].
  - split; [|right; left; exact X]. split; [exact L|]. split; [exact F|]. right; left; exact X.
  - pose proof (below_exponent P (t - 2 * (Z.of_nat d + 1)) b HP F ltac:(unfold dims in HD; lia) X2) as B.
    split; [|left; lia]. split; [exact L|]. split; [exact F|]. left. unfold precision. lia.
  - rewrite (spec_largest P e b HP F X1) by (destruct HP as [-> | ->]; lia). unfold tolerance in X4. rewrite E1 in X4.
    rewrite E2 in X2. rewrite E4 in X3.
    split; [|right; right; auto]. split; [exact L|]. split; [exact F|]. right; right.
    rewrite (spec_largest P e b HP F X1) by (destruct HP as [-> | ->]; lia). exact X2.
Qed.

Lemma Forall2_imp {A B} (R R' : A -> B -> Prop) l l' : (forall a b, R a b -> R' a b) -> Forall2 R l l' -> Forall2 R' l l'.
Proof. intros H. induction 1; constructor; auto. Qed.

Lemma scaled_trunc k i A B : 0 < A -> 0 < B -> Z.abs (k - i * A) < A -> Z.abs i * A <= Z.abs k ->
  0 <= k * i /\ Z.abs i * (A * B) <= Z.abs k * B < (Z.abs i + 1) * (A * B).
Proof.
  intros HA HB H1 H2. assert (H3 : Z.abs k < (Z.abs i + 1) * A).
  { rewrite Z.mul_add_distr_r. assert (Z.abs k <= Z.abs (k - i * A) + Z.abs i * A); [|lia].
    replace k with ((k - i * A) + i * A) at 1 by ring. etransitivity; [apply Z.abs_triangle|]. rewrite (Z.abs_mul i A), (Z.abs_eq A); lia. }
  split; [|split; [nia|nia]].
  destruct (Z.eq_dec i 0) as [->|]; [lia|]. destruct (Z.le_gt_cases 0 k); destruct (Z.le_gt_cases 0 i); nia.
Qed.

Section Coder.
Variables (W P d : nat) (minbits maxbits maxprec minexp : Z).
Hypothesis HW0 : word_size W.
Hypothesis HP : int_width P.
Hypothesis HD : dims d.
Hypothesis HM : Z.of_nat (exp_bits P) + 1 <= maxbits < 2 ^ 31.
Hypothesis HM1 : 0 <= minbits < 2 ^ 31.
Hypothesis HM2 : 0 <= maxprec < 2 ^ 31.
Let HW := word_size_range W HW0.
Let HMx : Z.of_nat (EBITS P) + 1 <= maxbits < 2 ^ 31.
Proof. destruct (spec_consts P HP) as (_ & _ & <- & _). exact HM. Qed.
Let code := float_code P d minbits maxbits maxprec minexp.

Lemma float_enc_put s L b : float_ok P d maxprec minexp b -> wat W s L -> (length L + length (code b) <= cap W s)%nat ->
  float_enc W P d minbits maxbits maxprec minexp s b = Some (put W s (code b)).
Proof. intros H1 H2 H3. unfold float_enc. rewrite (encode_float_put W P d minbits maxbits maxprec minexp HW0 HP HD HMx HM1 HM2 s L b H1 H2 H3). reflexivity. Qed.

Lemma float_dec_read m pos s b : float_ok P d maxprec minexp b -> readable W m pos (code b) s ->
  exists s', float_dec W P d minbits maxbits maxprec minexp s = (s', float_recon P d maxbits maxprec minexp b) /\
    rat W m (pos + length (code b)) s'.
Proof.
  intros H1 H2. destruct (decode_float_readable W P d minbits maxbits maxprec minexp HW0 HP HD HMx HM1 HM2 m pos s b H1 H2) as (s' & E & R).
  exists s'. unfold float_dec. rewrite E. auto.
Qed.
End Coder.

(* ------------------------------------------------------------------------------------ *)
(** * C48: floating-point blocks have the promised size and stay in step *)

(** the code word of a block: a single 0 bit and padding for an all-zero block; otherwise a
    1 bit, the biased exponent of the largest value, and the integer block obtained by
    scaling with 2^(P-2-e) and truncating *)
Theorem C48_block_code : forall W P d minbits maxbits maxprec minexp buf off b e,
  word_size W -> int_width P -> dims d -> Z.of_nat (exp_bits P) + 1 <= maxbits < 2 ^ 31 -> 0 <= minbits <= maxbits -> 0 < maxprec < 2 ^ 31 ->
  buffer_ok W buf -> codable_block P d b -> largest P e b -> Z.of_nat P - 2 - max_exp P <= e ->
  0 < e - minexp + 2 * (Z.of_nat d + 1) ->
  (off + Z.to_nat maxbits <= W * length buf)%nat ->
  exists ib,
    Forall2 (fun k i => 0 <= k * i /\ Z.abs i * 2 ^ (e + unit_exp P) <= Z.abs k * 2 ^ (Z.of_nat P - 2) < (Z.abs i + 1) * 2 ^ (e + unit_exp P)) b ib /\
    let s0 := stream_wseek W (stream_open buf) off in
    let s1 := snd (stream_write_bit W s0 true) in
    let s2 := snd (stream_write_bits W s1 (e + max_exp P) (exp_bits P)) in
    match encode_block W P d s2 (minbits - (Z.of_nat (exp_bits P) + 1)) (maxbits - (Z.of_nat (exp_bits P) + 1))
            (Z.min maxprec (e - minexp + 2 * (Z.of_nat d + 1))) ib with
    | Some (n, s) => encode_float W P d s0 minbits maxbits maxprec minexp b = Some (Z.of_nat (exp_bits P) + 1 + n, s)
    | None => False
    end.
Proof.
  intros W P d minbits maxbits maxprec minexp buf off b e HW0 HP HD HM HM1 HM2 Hb Hok Hl He Hpr Hc.
  destruct (spec_consts P HP) as (E1 & E2 & E3 & E4). pose proof (word_size_range W HW0) as HW.
  pose proof (spec_codable P d b maxprec minexp HP Hok) as OK.
  pose proof Hok as (Lb & Fin & _). apply spec_finite in Fin; [|exact HP].
  assert (He2 : 2 - EBIAS P <= e) by (rewrite <- E2; destruct HP as [-> | ->]; lia).
  pose proof (spec_largest P e b HP Fin Hl He2) as EX.
  assert (PR : prec_of P d maxprec minexp b = Z.min maxprec (e - minexp + 2 * (Z.of_nat d + 1))) by (unfold prec_of, precision; rewrite EX; lia).
  assert (BI : biased P d maxprec minexp b = e + EBIAS P) by (unfold biased; rewrite PR, EX; destruct (Z.eqb_spec (Z.min maxprec (e - minexp + 2 * (Z.of_nat d + 1))) 0); lia).
  assert (BN : biased P d maxprec minexp b <> 0) by lia.
  rewrite E3 in *.
  destruct (float_nonzero W P d minbits maxbits maxprec minexp HW0 HP HM ltac:(lia) ltac:(lia) b OK BN) as (N1 & N2 & N3 & N4).
  destruct (cast_spec W P d minbits maxbits maxprec minexp HW0 HP HM ltac:(lia) ltac:(lia) b OK BN) as (C1 & C2 & C3).
  destruct (start_wat W buf off HW0 Hb ltac:(lia)) as (Hw & L0 & Hcap).
  set (s0 := stream_wseek W (stream_open buf) off) in *.
  destruct (float_code_length W P d minbits maxbits maxprec minexp HW0 HP HD HM ltac:(lia) ltac:(lia) b OK) as [LC _].
  pose proof (encode_float_put W P d minbits maxbits maxprec minexp HW0 HP HD HM ltac:(lia) ltac:(lia) s0 _ b OK Hw ltac:(lia)) as EP.
  exists (cast P b). split.
  { destruct (fwd_cast_spec P b HP Fin ltac:(rewrite EX, <- E2; lia)) as (A & ib & X1 & X2 & X3 & X4). rewrite C1 in X1. assert (ib = cast P b) by congruence. subst ib. rewrite E1. rewrite EX in *.
    assert (EA : 2 ^ (e + U P) = 2 ^ (e + U P - (Z.of_nat P - 2)) * 2 ^ (Z.of_nat P - 2)).
    { rewrite <- Z.pow_add_r by (destruct HP; lia). f_equal. lia. }
    assert (HA : 0 < 2 ^ (e + U P - (Z.of_nat P - 2))) by (apply Z.pow_pos_nonneg; lia).
    assert (HB : 0 < 2 ^ (Z.of_nat P - 2)) by (apply Z.pow_pos_nonneg; [lia|]; destruct HP as [-> | ->]; lia).
    rewrite EA. eapply Forall2_imp; [|exact X4]. cbv beta. intros k i (Y1 & Y2). apply scaled_trunc; assumption. }
  cbv zeta. rewrite write_bit_put.
  destruct (coeffs_spec P d minbits maxbits maxprec HP HD (cast P b) C2 C3) as (c & X1 & X2 & X3 & X4 & _).
  fold (coeffs_of P d (cast P b)) in X2, X3, X4.
  assert (EC : float_code P d minbits maxbits maxprec minexp b =
    [true] ++ op_bits (PutBits (e + EBIAS P) (EBITS P)) ++
    block_bits P (minbits - (Z.of_nat (EBITS P) + 1)) (maxbits - (Z.of_nat (EBITS P) + 1)) (prec_of P d maxprec minexp b) (coeffs_of P d (cast P b))).
  { unfold float_code. destruct (Z.eqb_spec (biased P d maxprec minexp b) 0); [tauto|].
    replace (Z.to_nat (Z.of_nat (EBITS P) + 1)) with (Datatypes.S (EBITS P)) by lia.
    cbn [op_bits]. rewrite split_low, <- app_assoc, BI. reflexivity. }
  rewrite EC in *. clear EC. rewrite E2, <- PR. rewrite !app_length in LC. rewrite BI in N3.
  assert (HV : 0 <= e + EBIAS P < 2 ^ 64 /\ (EBITS P <= 64)%nat).
  { assert (EB : (EBITS P <= 64)%nat) by (destruct (scalar_consts P HP) as [H|H]; destruct H as (_ & -> & _); lia).
    assert (2 ^ Z.of_nat (EBITS P) <= 2 ^ 64) by (apply Z.pow_le_mono_r; lia). split; [lia|exact EB]. }
  destruct (put_wrote W HW s0 _ [true] Hw ltac:(cbn [length] in *; lia)) as (_ & CA & HwA).
  set (bb := op_bits (PutBits (e + EBIAS P) (EBITS P))) in *.
  set (ub := block_bits P _ _ _ _) in *.
  destruct (put_wrote W HW (put W s0 [true]) _ bb HwA ltac:(rewrite app_length, CA; lia)) as (_ & CB & HwB).
  rewrite (write_bits_put W HW (put W s0 [true]) _ _ _ HwA) by (try apply HV; rewrite app_length, CA; fold bb; cbn [op_len length] in *; unfold bb in *; cbn [op_bits] in LC; rewrite map_length, seq_length in LC; lia).
  fold bb.
  assert (PG : 0 <= prec_of P d maxprec minexp b < 2 ^ 31) by (rewrite PR; lia).
  rewrite (encode_block_put W HW P d (minbits - (Z.of_nat (EBITS P) + 1)) (maxbits - (Z.of_nat (EBITS P) + 1)) (prec_of P d maxprec minexp b) HD ltac:(lia) PG _ _ (cast P b) c (coeffs_of P d (cast P b)) HwB X1 X2 X3)
    by (rewrite !app_length, CB, CA; fold ub; lia).
  fold ub. rewrite EP. rewrite !put_app, !app_length. f_equal. f_equal.
  unfold bb at 1. cbn [op_bits]. rewrite map_length, seq_length. cbn [length]. lia.
Qed.

(** every codable block has a size between minbits and maxbits, exactly maxbits when the
    budget is fixed, and a decoded value that depend on nothing but the block and the
    parameters; written at any offset of any buffer of any word size it takes that many
    bits, and the decoder reads the same number of bits and returns that value *)
Theorem C48_block : forall P d minbits maxbits maxprec minexp b,
  int_width P -> dims d -> Z.of_nat (exp_bits P) + 1 <= maxbits < 2 ^ 31 -> 0 <= minbits <= maxbits -> 0 <= maxprec < 2 ^ 31 ->
  codable_block P d b ->
  exists n q,
    minbits <= Z.of_nat n <= maxbits /\
    Z.of_nat n <= Z.max minbits (Z.of_nat (exp_bits P) + 1 + Z.of_nat (full_bits (Nat.min P (Z.to_nat maxprec)) (4 ^ d))) /\
    forall W buf off, word_size W -> buffer_ok W buf -> (off + n <= W * length buf)%nat ->
      exists s s',
        encode_float W P d (stream_wseek W (stream_open buf) off) minbits maxbits maxprec minexp b = Some (Z.of_nat n, s) /\
        fault s = false /\ stream_wtell W s = (off + n)%nat /\
        decode_float W P d (stream_rseek W (snd (stream_flush W s)) off) minbits maxbits maxprec minexp = (Z.of_nat n, s', q) /\
        fault s' = false /\ stream_rtell W s' = (off + n)%nat.
Proof.
  intros P d minbits maxbits maxprec minexp b HP HD HM HM1 HM2 Hok.
  destruct (spec_consts P HP) as (E1 & E2 & E3 & E4). rewrite E3 in *.
  pose proof (spec_codable P d b maxprec minexp HP Hok) as OK.
  exists (length (float_code P d minbits maxbits maxprec minexp b)), (float_recon P d maxbits maxprec minexp b).
  destruct (float_code_length 64 P d minbits maxbits maxprec minexp ltac:(right; right; right; reflexivity) HP HD HM ltac:(lia) HM2 b OK) as [LC LC2].
  split; [lia|]. split; [exact LC2|]. intros W buf off HW0 Hb Hc. pose proof (word_size_range W HW0) as HW.
  destruct (start_wat W buf off HW0 Hb ltac:(lia)) as (Hw & L0 & Hcap).
  pose proof (encode_float_put W P d minbits maxbits maxprec minexp HW0 HP HD HM ltac:(lia) HM2 _ _ b OK Hw ltac:(lia)) as E.
  set (cw := float_code P d minbits maxbits maxprec minexp b) in *.
  destruct (put_wrote W HW _ _ cw Hw ltac:(lia)) as (_ & C & Hw').
  destruct (flush_readable W HW buf off cw Hb Hc) as (R & _).
  destruct (decode_float_readable W P d minbits maxbits maxprec minexp HW0 HP HD HM ltac:(lia) HM2 _ _ _ b OK R) as (s' & D & R').
  eexists. exists s'. split; [exact E|]. split; [apply Hw'|]. split.
  { rewrite (wat_tell W HW _ _ Hw'), app_length, L0. reflexivity. }
  split; [exact D|]. split; apply R'.
Qed.

(** a block coded alone at the start of a buffer of zeros and decoded again *)
Definition float_alone (W P d words : nat) (minbits maxbits maxprec minexp : Z) (b : list Z) : option (list Z) :=
  match encode_float W P d (stream_wseek W (stream_open (repeat 0 words)) 0) minbits maxbits maxprec minexp b with
  | Some (_, s) => snd (decode_float W P d (stream_rseek W (snd (stream_flush W s)) 0) minbits maxbits maxprec minexp)
  | None => None
  end.

Lemma float_alone_recon W P d words minbits maxbits maxprec minexp b :
  word_size W -> int_width P -> dims d -> Z.of_nat (EBITS P) + 1 <= maxbits < 2 ^ 31 -> 0 <= minbits <= maxbits -> 0 <= maxprec < 2 ^ 31 ->
  float_ok P d maxprec minexp b -> (Z.to_nat maxbits <= W * words)%nat ->
  float_alone W P d words minbits maxbits maxprec minexp b = float_recon P d maxbits maxprec minexp b.
Proof.
  intros HW0 HP HD HM HM1 HM2 OK Hc. pose proof (word_size_range W HW0) as HW.
  assert (Hb : buffer_ok W (repeat 0 words)).
  { apply Forall_forall. intros x X. apply repeat_spec in X. subst x. split; [lia|]. apply Z.pow_pos_nonneg; lia. }
  destruct (float_code_length W P d minbits maxbits maxprec minexp HW0 HP HD HM ltac:(lia) HM2 b OK) as [LC _].
  destruct (start_wat W (repeat 0 words) 0 HW0 Hb ltac:(lia)) as (Hw & L0 & Hcap). rewrite repeat_length in Hcap.
  unfold float_alone. rewrite (encode_float_put W P d minbits maxbits maxprec minexp HW0 HP HD HM ltac:(lia) HM2 _ _ b OK Hw) by lia.
  set (cw := float_code P d minbits maxbits maxprec minexp b) in *.
  destruct (flush_readable W HW (repeat 0 words) 0 cw Hb ltac:(rewrite repeat_length; lia)) as (R & _).
  destruct (decode_float_readable W P d minbits maxbits maxprec minexp HW0 HP HD HM ltac:(lia) HM2 _ _ _ b OK R) as (s' & D & _).
  rewrite D. reflexivity.
Qed.

Lemma concat_sum (code : list Z -> list bool) n lo hi (blk : nat -> list Z) :
  (forall b, (b < n)%nat -> (lo <= length (code (blk b)) <= hi)%nat) ->
  (n * lo <= length (concat (map code (map blk (seq 0 n)))) <= n * hi)%nat.
Proof.
  induction n as [|n IH]; intros H; [cbn; lia|]. rewrite seq_S, !map_app, concat_app, app_length. cbn [map concat plus app]. rewrite app_nil_r.
  specialize (H n ltac:(lia)) as Hn. specialize (IH ltac:(intros; apply H; lia)). lia.
Qed.

(** whole arrays: a compressed array occupies between blocks * minbits and blocks * maxbits
    bits (so exactly blocks * maxbits at a fixed rate), decompression consumes exactly the
    bits written, every element receives the value its block decodes to when coded alone,
    and no other memory changes *)
Theorem C48_array : forall W P minbits maxbits maxprec minexp buf off junk f m g mg words (out : nat -> list Z),
  let d := zfp_field_dimensionality f in
  let blk := array_block 0 m (fdata f) (sizes f) (array_strides f) in
  word_size W -> int_width P -> (1 <= d)%nat ->
  Z.of_nat (exp_bits P) + 1 <= maxbits < 2 ^ 31 -> 0 <= minbits <= maxbits -> 0 <= maxprec < 2 ^ 31 ->
  buffer_ok W buf -> sizes g = sizes f -> int_strides f -> int_strides g -> length junk = (4 ^ d)%nat ->
  fits m (fdata f) (sizes f) (array_strides f) ->
  fits mg (fdata g) (sizes g) (array_strides g) -> no_overlap (fdata g) (sizes g) (array_strides g) ->
  (Z.to_nat maxbits <= W * words)%nat ->
  (forall b, (b < blocks_in (sizes f))%nat -> codable_block P d (blk b) /\ length (out b) = (4 ^ d)%nat /\
     float_alone W P d words minbits maxbits maxprec minexp (blk b) = Some (out b)) ->
  (off + blocks_in (sizes f) * Z.to_nat maxbits <= W * length buf)%nat ->
  exists s m' s',
    compress Z 0 (float_enc W P d minbits maxbits maxprec minexp) junk f m (stream_wseek W (stream_open buf) off) = Some s /\
    fault s = false /\
    (off + blocks_in (sizes f) * Z.to_nat minbits <= stream_wtell W s <= off + blocks_in (sizes f) * Z.to_nat maxbits)%nat /\
    decompress Z (float_dec W P d minbits maxbits maxprec minexp) g (mg, stream_rseek W (snd (stream_flush W s)) off) = Some (m', s') /\
    fault s' = false /\ stream_rtell W s' = stream_wtell W s /\ length m' = length mg /\
    (forall cs, inside cs (sizes f) ->
       at_addr 0 m' (addr (fdata g) (array_strides g) cs) = nth (place_of cs) (out (block_of (sizes f) cs)) 0) /\
    (forall a, 0 <= a -> (forall cs, inside cs (sizes f) -> addr (fdata g) (array_strides g) cs <> a) ->
       at_addr 0 m' a = at_addr 0 mg a).
Proof.
  intros W P minbits maxbits maxprec minexp buf off junk f m g mg words out d blk HW0 HP HD HM HM1 HM2 Hb HG If Ig HJ HF HFg HNg Hwd Hblk Hc.
  destruct (dim_dims f HD) as (DD & LN & HPos). fold d in DD.
  pose proof HM as HMx. destruct (spec_consts P HP) as (_ & _ & E3 & _). rewrite E3 in HMx.
  assert (OKB : forall b, (b < blocks_in (sizes f))%nat -> float_ok P d maxprec minexp (blk b)).
  { intros b B. apply spec_codable; [exact HP|]. apply Hblk. exact B. }
  pose proof (concat_sum (float_code P d minbits maxbits maxprec minexp) (blocks_in (sizes f)) (Z.to_nat minbits) (Z.to_nat maxbits) blk) as CS.
  assert (CL : forall b, (b < blocks_in (sizes f))%nat ->
    (Z.to_nat minbits <= length (float_code P d minbits maxbits maxprec minexp (blk b)) <= Z.to_nat maxbits)%nat).
  { intros b B. destruct (float_code_length W P d minbits maxbits maxprec minexp HW0 HP DD HMx ltac:(lia) HM2 (blk b) (OKB b B)) as [LC _]. lia. }
  specialize (CS CL).
  destruct (codec_array W HW0 (float_enc W P d minbits maxbits maxprec minexp) (float_dec W P d minbits maxbits maxprec minexp)
    (float_code P d minbits maxbits maxprec minexp) (float_ok P d maxprec minexp) (float_recon P d maxbits maxprec minexp)
    (fun s L b => float_enc_put W P d minbits maxbits maxprec minexp HW0 HP DD HM ltac:(lia) HM2 s L b)
    (fun m pos s b => float_dec_read W P d minbits maxbits maxprec minexp HW0 HP DD HM ltac:(lia) HM2 m pos s b)
    buf off junk f m g mg out Hb HD HG If Ig HJ HF HFg HNg) as (s & m' & s' & X1 & X2 & X3 & X4 & X5 & X6 & X7 & X8 & X9 & X10).
  { intros b B. destruct (Hblk b B) as (B1 & B2 & B3). split; [apply OKB; exact B|]. split; [|exact B2].
    rewrite <- B3. symmetry. apply float_alone_recon; auto; lia. }
  { unfold array_blocks. fold blk. etransitivity; [apply Nat.add_le_mono_l; apply CS|exact Hc]. }
  exists s, m', s'. split; [exact X1|]. split; [exact X3|]. split; [unfold array_blocks in X4; fold blk in X4; lia|]. auto 10.
Qed.
Print Assumptions C48_block_code.
Print Assumptions C48_block.
Print Assumptions C48_array.

(* ------------------------------------------------------------------------------------ *)
(** * C47: fixed-accuracy mode honours its tolerance *)

(** one block with the parameters zfp_stream_set_accuracy chooses (any maxbits large enough
    for all bit planes): the decoder reads the bits the encoder wrote and every value is
    within the tolerance 2^t *)
Theorem C47_block : forall W P d minbits maxbits maxprec t buf off b,
  word_size W -> int_width P -> dims d ->
  Z.of_nat (exp_bits P) + 1 + Z.of_nat (full_bits P (4 ^ d)) <= maxbits < 2 ^ 31 -> 0 <= minbits <= maxbits ->
  Z.of_nat P <= maxprec < 2 ^ 31 -> - unit_exp P <= t ->
  buffer_ok W buf -> accurate_block P d t b -> (off + Z.to_nat maxbits <= W * length buf)%nat ->
  exists n s s' b',
    encode_float W P d (stream_wseek W (stream_open buf) off) minbits maxbits maxprec t b = Some (n, s) /\
    decode_float W P d (stream_rseek W (snd (stream_flush W s)) off) minbits maxbits maxprec t = (n, s', Some b') /\
    fault s = false /\ fault s' = false /\ stream_rtell W s' = stream_wtell W s /\
    within P t b b'.
Proof.
  intros W P d minbits maxbits maxprec t buf off b HW0 HP HD HM HM1 HM2 Ht Hb Hacc Hc.
  destruct (spec_consts P HP) as (E1 & E2 & E3 & E4). rewrite E3, E1 in *. pose proof (word_size_range W HW0) as HW.
  destruct (spec_accurate P d b t maxprec HP HD ltac:(lia) Hacc) as [OK CASE].
  pose proof OK as (Lb & Fin & _).
  destruct (float_accuracy P d maxbits maxprec t b HP HD Fin Lb HM HM2 Ht CASE) as (b' & R1 & R2 & R3).
  destruct (float_code_length W P d minbits maxbits maxprec t HW0 HP HD ltac:(lia) ltac:(lia) ltac:(lia) b OK) as [LC _].
  destruct (start_wat W buf off HW0 Hb ltac:(lia)) as (Hw & L0 & Hcap).
  pose proof (encode_float_put W P d minbits maxbits maxprec t HW0 HP HD ltac:(lia) ltac:(lia) ltac:(lia) _ _ b OK Hw ltac:(lia)) as E.
  set (cw := float_code P d minbits maxbits maxprec t b) in *.
  destruct (put_wrote W HW _ _ cw Hw ltac:(lia)) as (_ & C & Hw').
  destruct (flush_readable W HW buf off cw Hb ltac:(lia)) as (R & _).
  destruct (decode_float_readable W P d minbits maxbits maxprec t HW0 HP HD ltac:(lia) ltac:(lia) ltac:(lia) _ _ _ b OK R) as (s' & D & R').
  rewrite R1 in D. do 2 eexists. exists s', b'. split; [exact E|]. split; [exact D|]. split; [apply Hw'|]. split; [apply R'|]. split.
  - rewrite (wat_tell W HW _ _ Hw'), app_length, L0. apply R'.
  - unfold within, tolerance. rewrite E1. exact R3.
Qed.

(** whole arrays *)
Theorem C47_array : forall W P minbits maxbits maxprec t buf off junk f m g mg,
  let d := zfp_field_dimensionality f in
  word_size W -> int_width P -> (1 <= d)%nat ->
  Z.of_nat (exp_bits P) + 1 + Z.of_nat (full_bits P (4 ^ d)) <= maxbits < 2 ^ 31 -> 0 <= minbits <= maxbits ->
  Z.of_nat P <= maxprec < 2 ^ 31 -> - unit_exp P <= t ->
  buffer_ok W buf -> sizes g = sizes f -> int_strides f -> int_strides g -> length junk = (4 ^ d)%nat ->
  fits m (fdata f) (sizes f) (array_strides f) ->
  fits mg (fdata g) (sizes g) (array_strides g) -> no_overlap (fdata g) (sizes g) (array_strides g) ->
  (forall b, (b < blocks_in (sizes f))%nat -> accurate_block P d t (array_block 0 m (fdata f) (sizes f) (array_strides f) b)) ->
  (off + blocks_in (sizes f) * Z.to_nat maxbits <= W * length buf)%nat ->
  exists s m' s',
    compress Z 0 (float_enc W P d minbits maxbits maxprec t) junk f m (stream_wseek W (stream_open buf) off) = Some s /\
    decompress Z (float_dec W P d minbits maxbits maxprec t) g (mg, stream_rseek W (snd (stream_flush W s)) off) = Some (m', s') /\
    fault s = false /\ fault s' = false /\ stream_rtell W s' = stream_wtell W s /\ length m' = length mg /\
    (forall cs, inside cs (sizes f) ->
       Z.abs (at_addr 0 m (addr (fdata f) (array_strides f) cs) - at_addr 0 m' (addr (fdata g) (array_strides g) cs)) < tolerance P t) /\
    (forall a, 0 <= a -> (forall cs, inside cs (sizes f) -> addr (fdata g) (array_strides g) cs <> a) ->
       at_addr 0 m' a = at_addr 0 mg a).
Proof.
  intros W P minbits maxbits maxprec t buf off junk f m g mg d HW0 HP HD HM HM1 HM2 Ht Hb HG If Ig HJ HF HFg HNg Hblk Hc.
  destruct (dim_dims f HD) as (DD & LN & HPos). fold d in DD, LN.
  destruct (spec_consts P HP) as (E1 & _ & E3 & _).
  set (blk := array_block 0 m (fdata f) (sizes f) (array_strides f)) in *.
  assert (HMs : Z.of_nat (exp_bits P) + 1 <= maxbits < 2 ^ 31) by lia.
  pose proof HM as HMx. rewrite E3 in HMx. rewrite E1 in Ht.
  assert (OKB : forall b, (b < blocks_in (sizes f))%nat -> float_ok P d maxprec t (blk b) /\
     exists b', float_recon P d maxbits maxprec t (blk b) = Some b' /\ length b' = (4 ^ d)%nat /\ within P t (blk b) b').
  { intros b B. destruct (spec_accurate P d (blk b) t maxprec HP DD ltac:(lia) (Hblk b B)) as [OK CASE].
    pose proof OK as (Lb & Fin & _).
    destruct (float_accuracy P d maxbits maxprec t (blk b) HP DD Fin Lb HMx HM2 Ht CASE) as (b' & R1 & R2 & R3).
    split; [exact OK|]. exists b'. split; [exact R1|]. split; [congruence|]. unfold within, tolerance. rewrite E1. exact R3. }
  set (out := fun b => match float_recon P d maxbits maxprec t (blk b) with Some b' => b' | None => [] end).
  pose proof (concat_sum (float_code P d minbits maxbits maxprec t) (blocks_in (sizes f)) (Z.to_nat minbits) (Z.to_nat maxbits) blk) as CS.
  assert (CL : forall b, (b < blocks_in (sizes f))%nat ->
    (Z.to_nat minbits <= length (float_code P d minbits maxbits maxprec t (blk b)) <= Z.to_nat maxbits)%nat).
  { intros b B. destruct (float_code_length W P d minbits maxbits maxprec t HW0 HP DD ltac:(lia) ltac:(lia) ltac:(lia) (blk b) (proj1 (OKB b B))) as [LC _]. lia. }
  specialize (CS CL).
  destruct (codec_array W HW0 (float_enc W P d minbits maxbits maxprec t) (float_dec W P d minbits maxbits maxprec t)
    (float_code P d minbits maxbits maxprec t) (float_ok P d maxprec t) (float_recon P d maxbits maxprec t)
    (fun s L b => float_enc_put W P d minbits maxbits maxprec t HW0 HP DD HMs ltac:(lia) ltac:(lia) s L b)
    (fun m pos s b => float_dec_read W P d minbits maxbits maxprec t HW0 HP DD HMs ltac:(lia) ltac:(lia) m pos s b)
    buf off junk f m g mg out Hb HD HG If Ig HJ HF HFg HNg) as (s & m' & s' & X1 & X2 & X3 & X4 & X5 & X6 & X7 & X8 & X9 & X10).
  { intros b B. destruct (OKB b B) as (O1 & b' & O2 & O3 & _). unfold out. fold blk. rewrite O2. auto. }
  { unfold array_blocks. fold blk. etransitivity; [apply Nat.add_le_mono_l; apply CS|exact Hc]. }
  exists s, m', s'. split; [exact X1|]. split; [exact X5|]. conjs; auto.
  intros cs Hcs. rewrite X9 by exact Hcs.
  pose proof (block_of_lt (sizes f) cs Hcs) as BL.
  destruct (OKB _ BL) as (_ & b' & O2 & O3 & O4). unfold out. rewrite O2.
  destruct (C17_exactly_once (sizes f) cs Hcs) as (_ & Hi & _ & C & _). set (b := block_of (sizes f) cs) in *.
  assert (H : Z.abs (nth (place_of cs) (blk b) 0 - nth (place_of cs) b' 0) < tolerance P t).
  { unfold within in O4. assert (TP : 0 < tolerance P t) by (unfold tolerance; apply Z.pow_pos_nonneg; lia). clear - O4 TP. revert O4. generalize (place_of cs) as j.
    intros j O4. revert j. induction O4 as [|x y l l' R O4 IH]; intros [|j]; cbn [nth]; auto; rewrite Z.sub_diag; exact TP. }
  revert H. unfold blk at 1, array_block.
  rewrite (nth_indep _ 0 ((fun i => at_addr 0 m (addr (fdata f) (array_strides f) (cell (sizes f) b i))) 0%nat)) by (rewrite map_length, seq_length; exact Hi).
  rewrite (map_nth (fun i => at_addr 0 m (addr (fdata f) (array_strides f) (cell (sizes f) b i)))), seq_nth by exact Hi. cbn [Nat.add].
  rewrite C. auto.
Qed.

(** without the last condition of [accurate_block] the promise is not kept by the code as
    written: a constant float block just below 1, coded with tolerance 2^-12, makes the
    decoder overflow a signed 32-bit integer, which C leaves undefined *)
Theorem C47_near_power_of_two_refuted :
  let x := (2 ^ 24 - 1) * 2 ^ 125 in
  let b := [x; x; x; x] in
  is_scalar 32 x /\ largest 32 0 b /\ Z.of_nat 32 - 2 - max_exp 32 <= 0 /\ 0 - (-12) <= max_digits 32 /\
  float_alone 64 32 1 4 1 16651 64 (-12) b = None.
Proof.
  cbv zeta. split; [split; [vm_compute; reflexivity|exists (2 ^ 24 - 1), 125; vm_compute; repeat split; discriminate]|].
  split; [split; [repeat constructor|apply Exists_cons_hd; vm_compute; discriminate]|].
  split; [vm_compute; discriminate|]. split; [vm_compute; discriminate|]. vm_compute. reflexivity.
Qed.
Print Assumptions C47_block.
Print Assumptions C47_array.
Print Assumptions C47_near_power_of_two_refuted.

(** a 5 x 1 strided float array holding 0.75 * (1, -1, 1/2, 0, 1/4) with tolerance 2^-10 *)
Example C47_nonvacuous :
  let q := 3 * 2 ^ 147 in
  let f := mk_field 5 0 0 0 2 0 0 0 0 in
  let g := mk_field 5 0 0 0 0 0 0 0 0 in
  let m := [q; 9; - q; 9; q / 2; 9; 0; 9; q / 4] in
  zfp_field_dimensionality f = 1%nat /\ sizes g = sizes f /\ int_strides f /\ int_strides g /\
  Forall (accurate_block 32 1 (-10)) [[q; - q; q / 2; 0]; [q / 4; q / 4; q / 4; q / 4]] /\
  array_blocks 0 m (fdata f) (sizes f) (array_strides f) = [[q; - q; q / 2; 0]; [q / 4; q / 4; q / 4; q / 4]] /\
  Z.of_nat (exp_bits 32) + 1 + Z.of_nat (full_bits 32 4) <= 16651 /\
  match compress Z 0 (float_enc 64 32 1 1 16651 64 (-10)) (repeat 0 4) f m (stream_wseek 64 (stream_open (repeat 0 9)) 3) with
  | Some s => stream_wtell 64 s = 96%nat
  | None => False
  end.
Proof.
  cbv zeta. split; [reflexivity|]. split; [reflexivity|]. split; [repeat constructor; cbn; lia|]. split; [repeat constructor; cbn; lia|].
  split.
  { constructor; [|constructor; [|constructor]].
    - split; [reflexivity|]. split; [repeat constructor|]. right; right. exists 0.
      split; [split; [repeat constructor|apply Exists_cons_hd; vm_compute; discriminate]|].
      split; [vm_compute; discriminate|]. split; [vm_compute; discriminate|]. repeat constructor; vm_compute; discriminate.
    - split; [reflexivity|]. split; [repeat constructor|]. right; right. exists (-2).
      split; [split; [repeat constructor|apply Exists_cons_hd; vm_compute; discriminate]|].
      split; [vm_compute; discriminate|]. split; [vm_compute; discriminate|]. repeat constructor; vm_compute; discriminate. }
  split; [vm_compute; reflexivity|]. split; [vm_compute; discriminate|]. vm_compute. reflexivity.
Qed.

(** C48: the same two blocks at a fixed rate of 40 bits per block, and an all-zero block *)
Example C48_nonvacuous :
  let q := 3 * 2 ^ 147 in
  Forall (codable_block 32 1) [[q; - q; q / 2; 0]; [0; 0; 0; 0]] /\
  match encode_float 64 32 1 (stream_wseek 64 (stream_open (repeat 5 9)) 3) 40 40 64 (-1074) [q; - q; q / 2; 0] with
  | Some (n, s) => n = 40 /\ stream_wtell 64 s = 43%nat
  | None => False
  end /\
  float_alone 64 32 1 2 40 40 64 (-1074) [0; 0; 0; 0] = Some [0; 0; 0; 0].
Proof.
  cbv zeta. split.
  { constructor; [|constructor; [|constructor]].
    - split; [reflexivity|]. split; [repeat constructor|]. right. exists 0.
      split; [split; [repeat constructor|apply Exists_cons_hd; vm_compute; discriminate]|vm_compute; discriminate].
    - split; [reflexivity|]. split; [repeat constructor|]. left. repeat constructor. }
  split; [vm_compute; auto|vm_compute; reflexivity].
Qed.

(* ------------------------------------------------------------------------------------ *)
(** * C49: what happens to blocks outside the range of the format *)

(** an all-zero block takes max(1, minbits) bits and is decoded exactly *)
Theorem C49_zero_block : forall W P d words minbits maxbits maxprec minexp b,
  word_size W -> int_width P -> dims d -> Z.of_nat (exp_bits P) + 1 <= maxbits < 2 ^ 31 -> 0 <= minbits <= maxbits -> 0 <= maxprec < 2 ^ 31 ->
  length b = (4 ^ d)%nat -> Forall (fun k => k = 0) b -> (Z.to_nat maxbits <= W * words)%nat ->
  float_alone W P d words minbits maxbits maxprec minexp b = Some b /\
  option_map fst (encode_float W P d (stream_wseek W (stream_open (repeat 0 words)) 0) minbits maxbits maxprec minexp b) = Some (Z.max 1 minbits).
Proof.
  intros W P d words minbits maxbits maxprec minexp b HW0 HP HD HM HM1 HM2 Lb Hz Hc.
  destruct (spec_consts P HP) as (_ & _ & E3 & _). rewrite E3 in HM. pose proof (word_size_range W HW0) as HW.
  assert (Fin : in_range P b).
  { eapply Forall_impl; [|exact Hz]. cbn. intros k ->. apply Z.pow_pos_nonneg; [lia|]. unfold U. destruct HP as [-> | ->]; vm_compute; discriminate. }
  assert (OK : float_ok P d maxprec minexp b) by (split; [exact Lb|]; split; [exact Fin|]; right; left; exact Hz).
  destruct (exponent_block_spec P b HP Fin) as (_ & _ & X3 & _). apply X3 in Hz as HE.
  assert (BZ : biased P d maxprec minexp b = 0) by (unfold biased; rewrite HE; destruct (_ =? 0); lia).
  split.
  - rewrite float_alone_recon by auto. unfold float_recon. rewrite BZ. cbn [Z.eqb]. f_equal.
    rewrite <- Lb. clear - Hz. induction Hz as [|k l -> _ IH]; [reflexivity|]. cbn [length repeat]. congruence.
  - assert (Hb : buffer_ok W (repeat 0 words)).
    { apply Forall_forall. intros x X. apply repeat_spec in X. subst x. split; [lia|]. apply Z.pow_pos_nonneg; lia. }
    destruct (float_code_length W P d minbits maxbits maxprec minexp HW0 HP HD HM ltac:(lia) HM2 b OK) as [LC _].
    destruct (start_wat W (repeat 0 words) 0 HW0 Hb ltac:(lia)) as (Hw & L0 & Hcap). rewrite repeat_length in Hcap.
    rewrite (encode_float_put W P d minbits maxbits maxprec minexp HW0 HP HD HM ltac:(lia) HM2 _ _ b OK Hw) by lia.
    cbn [option_map fst]. f_equal. unfold float_code. rewrite BZ. cbn [Z.eqb]. rewrite padded_length. cbn [length]. lia.
Qed.

(** a block whose largest magnitude is positive but below the range of the format, and that
    is not coded as zero: the scale factor overflows to infinity and the conversion of an
    infinity or NaN to an integer is undefined; no result can be promised *)
Theorem C49_tiny_block_undefined : forall W P d minbits maxbits maxprec minexp s b e,
  int_width P -> finite_values P b -> largest P e b -> 2 - max_exp P <= e < Z.of_nat P - 2 - max_exp P ->
  0 < maxprec -> 0 < e - minexp + 2 * (Z.of_nat d + 1) ->
  encode_float W P d s minbits maxbits maxprec minexp b = None.
Proof.
  intros W P d minbits maxbits maxprec minexp s b e HP Fin Hl He Hp Hq.
  destruct (spec_consts P HP) as (E1 & E2 & E3 & _). apply spec_finite in Fin; [|exact HP]. rewrite E2 in *.
  pose proof (spec_largest P e b HP Fin Hl ltac:(lia)) as EX.
  unfold encode_float. cbv zeta. rewrite EX. unfold precision.
  destruct (Z.eqb_spec (Z.min maxprec (Z.max 0 (e - minexp + 2 * (Z.of_nat d + 1)))) 0); [lia|].
  destruct (Z.eqb_spec (e + EBIAS P) 0); [lia|]. unfold fwd_cast.
  destruct (Z.ltb_spec (EBIAS P) (Z.of_nat P - 2 - e)); [reflexivity|lia].
Qed.

(** every finite value is not coded faithfully: in fixed-precision mode, 2^-100 as a float *)
Theorem C49_every_finite_block_refuted :
  exists b, length b = 4%nat /\ Forall (is_scalar 32) b /\
    float_alone 64 32 1 40 1 16651 32 (-1074) b = None.
Proof.
  exists [2 ^ 49; 0; 0; 0]. split; [reflexivity|]. split; [|vm_compute; reflexivity].
  constructor; [split; [vm_compute; reflexivity|exists 1, 49; vm_compute; repeat split; discriminate]|].
  assert (Z0 : is_scalar 32 0) by (split; [vm_compute; reflexivity|exists 0, 0; vm_compute; repeat split; discriminate]). auto.
Qed.

Print Assumptions C49_zero_block.
Print Assumptions C49_tiny_block_undefined.
Print Assumptions C49_every_finite_block_refuted.

Example C49_nonvacuous :
  finite_values 32 [2 ^ 49; - 2 ^ 48; 0; 0] /\ largest 32 (-99) [2 ^ 49; - 2 ^ 48; 0; 0] /\
  2 - max_exp 32 <= -99 < Z.of_nat 32 - 2 - max_exp 32 /\ 0 < -99 - (-1074) + 2 * (Z.of_nat 1 + 1).
Proof.
  split; [repeat constructor|]. split; [split; [repeat constructor|apply Exists_cons_hd; vm_compute; discriminate]|].
  split; [vm_compute; split; [discriminate|reflexivity]|vm_compute; reflexivity].
Qed.
