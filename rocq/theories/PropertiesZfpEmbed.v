(** Properties C09-C12: the zfp embedded coder (zfp/src/template/encode.c, decode.c).
    Vocabulary: StreamSpec.v and the last part of EmbedSpec.v ([full_bits], [keep_top]).
    P is the width of the coefficients, 32 or 64 in the library; any width is covered. *)
From Coq Require Import ZArith Lia List Bool Arith.
From Verif Require Import ListAux Bits Bitstream BitstreamProofs BitstreamProofs2 StreamSpec StreamRuns.
From Verif Require Import EmbedSpec ZfpCodec ZfpCodecProofs ZfpCodecProofs2 ZfpCodecProofs3 EmbedProofs EmbedRuns.
Import ListNotations.
Local Open Scope Z_scope.

(** unsigned P-bit coefficients *)
Definition coeffs_ok (P : nat) (data : list Z) : Prop := Forall (fun d => 0 <= d < 2 ^ Z.of_nat P) data.

Lemma start_wat W buf off : word_size W -> buffer_ok W buf -> (off <= W * length buf)%nat ->
  wat W (stream_wseek W (stream_open buf) off) (firstn off (membits W buf)) /\
  length (firstn off (membits W buf)) = off /\
  cap W (stream_wseek W (stream_open buf) off) = (W * length buf)%nat.
Proof.
  intros HW0 Hb Hc. pose proof (word_size_range W HW0) as HW.
  destruct (wat_wseek W HW (stream_open buf) off) as [A Am]; auto.
  change (mem (stream_open buf)) with buf in *. conjs; auto.
  - rewrite firstn_length_le; auto. rewrite membits_length by auto. lia.
  - unfold cap. rewrite Am. auto.
Qed.

(** One call of each encoder, then flush, then one call of the decoder at the same place. *)
Lemma encode_decode W P buf off data encbits decbits maxprec :
  word_size W -> buffer_ok W buf -> (1 <= length data <= 64)%nat -> coeffs_ok P data ->
  (off + Nat.min encbits (full_bits (Nat.min P maxprec) (length data)) <= W * length buf)%nat ->
  (decbits <= encbits)%nat ->
  let B := firstn encbits (ecode P (kmin_of P maxprec) 0 data) in
  let D := firstn decbits (ecode P (kmin_of P maxprec) 0 data) in
  let s0 := stream_wseek W (stream_open buf) off in
  encode_ints W P s0 encbits maxprec data = (length B, put W s0 B) /\
  encode_many_ints W P s0 encbits maxprec data = (length B, put W s0 B) /\
  wat W (put W s0 B) (firstn off (membits W buf) ++ B) /\
  stream_wtell W (put W s0 B) = (off + length B)%nat /\
  let s1 := snd (stream_flush W (put W s0 B)) in
  fault s1 = false /\ length (mem s1) = length buf /\
  let '(c, data', s2) := decode_ints W P (stream_rseek W s1 off) decbits maxprec (length data) in
  c = length D /\ decoded P maxprec decbits data data' /\ rat W (mem s1) (off + length D) s2 /\
  decode_many_ints W P (stream_rseek W s1 off) decbits maxprec (length data) = (c, data', s2).
Proof.
  intros HW0 Hb Hl Hr Hc Hd B D s0. pose proof (word_size_range W HW0) as HW.
  assert (data <> []) as Hne by (destruct data; [cbn in Hl; lia|congruence]).
  pose proof (ecode_full P maxprec data Hne) as Hf.
  assert (off + length B <= W * length buf)%nat as HB by (unfold B; rewrite firstn_length; lia).
  destruct (start_wat W buf off HW0 Hb ltac:(lia)) as (Hw & L0 & Hcap). fold s0 in Hw, Hcap.
  split; [apply (encode_ints_put W HW P s0 _ encbits maxprec data ltac:(lia) Hw); fold B; lia|].
  split; [apply (encode_many_ints_put W HW P s0 _ encbits maxprec data Hw); fold B; lia|].
  pose proof (put_wrote W HW s0 _ B Hw ltac:(lia)) as (_ & _ & Hw').
  split; auto. split; [rewrite (wat_tell W HW _ _ Hw'), app_length, L0; auto|].
  destruct (flush_readable W HW buf off B Hb HB) as (R & F & L & _). fold s0 in R, F, L.
  set (s1 := snd (stream_flush W (put W s0 B))) in *.
  split; auto. split; auto.
  assert (readable W (mem s1) off D (stream_rseek W s1 off)) as RD.
  { destruct R as (R1 & R2 & R3). unfold readable. split; auto.
    assert (D = firstn decbits B) as ED by (unfold D, B; rewrite firstn_firstn, Nat.min_l; auto).
    assert (length D <= length B)%nat as LD by (rewrite ED, firstn_length; lia).
    split; [lia|]. rewrite ED. rewrite <- R3 at 2. rewrite firstn_firstn, firstn_length. f_equal. }
  exact (decode_ints_readable W HW P decbits maxprec data (mem s1) off _ Hne ltac:(lia) Hr RD).
Qed.

(** C09: with a sufficient bit budget (the bound [full_bits] always suffices) decoding
    returns every coefficient with exactly its top maxprec bits, wherever in whatever
    buffer the code was written. *)
Theorem C09_lossless : forall W P buf off data maxbits maxprec,
  word_size W -> buffer_ok W buf -> (1 <= length data <= 64)%nat -> coeffs_ok P data ->
  (full_bits (Nat.min P maxprec) (length data) <= maxbits)%nat ->
  (off + full_bits (Nat.min P maxprec) (length data) <= W * length buf)%nat ->
  let '(_, s) := encode_ints W P (stream_wseek W (stream_open buf) off) maxbits maxprec data in
  let s := stream_rseek W (snd (stream_flush W s)) off in
  let '(_, data', s') := decode_ints W P s maxbits maxprec (length data) in
  data' = map (keep_top P maxprec) data /\ fault s' = false.
Proof.
  intros W P buf off data maxbits maxprec HW Hb Hl Hr Hm Hc.
  pose proof (encode_decode W P buf off data maxbits maxbits maxprec HW Hb Hl Hr ltac:(lia) ltac:(lia)) as R.
  cbv zeta in R. destruct R as (E & _ & _ & _ & R1 & R2 & R). rewrite E. cbv zeta.
  destruct (decode_ints W P _ maxbits maxprec (length data)) as [[c data'] s2].
  destruct R as (_ & D & R & _). split; [|apply R].
  eapply (decoded_full W ltac:(auto using word_size_range)); [|exact D]. etransitivity; [|exact Hm]. apply ecode_full.
  destruct data; [cbn in Hl; lia|congruence].
Qed.
Print Assumptions C09_lossless.

Example C09_nonvacuous :
  let data := [4000000000; 17; 0; 5; 123456; 1; 2; 3] in
  (full_bits 32 8 <= 300)%nat /\ coeffs_ok 32 data /\ map (keep_top 32 64) data = data /\
  keep_top 32 8 4000000000 = 3992977408 /\
  (let '(c, s) := encode_ints 64 32 (stream_wseek 64 (stream_open (repeat 7 10)) 5) 300 32 data in
   let '(c', data', s') := decode_ints 64 32 (stream_rseek 64 (snd (stream_flush 64 s)) 5) 300 32 8 in
   c = 139%nat /\ c' = 139%nat /\ data' = data).
Proof.
  cbv zeta. unfold coeffs_ok. split; [vm_compute; repeat constructor|]. split; [repeat constructor; lia|].
  split; [reflexivity|]. split; [reflexivity|]. vm_compute. auto.
Qed.

(** C09 for blocks of more than 64 coefficients (encode_many_ints / decode_many_ints). *)
Theorem C09_lossless_long : forall W P buf off data maxbits maxprec,
  word_size W -> buffer_ok W buf -> (1 <= length data)%nat -> coeffs_ok P data ->
  (full_bits (Nat.min P maxprec) (length data) <= maxbits)%nat ->
  (off + full_bits (Nat.min P maxprec) (length data) <= W * length buf)%nat ->
  let '(c, s) := encode_many_ints W P (stream_wseek W (stream_open buf) off) maxbits maxprec data in
  let s1 := stream_rseek W (snd (stream_flush W s)) off in
  let '(c', data', s') := decode_many_ints W P s1 maxbits maxprec (length data) in
  data' = map (keep_top P maxprec) data /\ c' = c /\ fault s' = false /\
  stream_wtell W s = (off + c)%nat /\ stream_rtell W s' = (off + c)%nat.
Proof.
  intros W P buf off data maxbits maxprec HW0 Hb Hl Hr Hm Hc. pose proof (word_size_range W HW0) as HW.
  assert (data <> []) as Hne by (destruct data; [cbn in Hl; lia|congruence]).
  pose proof (ecode_full P maxprec data Hne) as Hf.
  destruct (start_wat W buf off HW0 Hb ltac:(lia)) as (Hw & L0 & Hcap).
  set (s0 := stream_wseek W (stream_open buf) off) in *.
  set (B := firstn maxbits (ecode P (kmin_of P maxprec) 0 data)) in *.
  assert (off + length B <= W * length buf)%nat as HB by (unfold B; rewrite firstn_length; lia).
  rewrite (encode_many_ints_put W HW P s0 _ maxbits maxprec data Hw) by (fold B; lia). fold B. cbv zeta.
  pose proof (put_wrote W HW s0 _ B Hw ltac:(lia)) as (_ & _ & Hw').
  destruct (flush_readable W HW buf off B Hb HB) as (R & F & L & _). fold s0 in R, F, L.
  pose proof (decode_many_ints_readable W HW P maxbits maxprec data _ off _ Hne Hr R) as D.
  destruct (decode_many_ints W P _ maxbits maxprec (length data)) as [[c' data'] s'].
  fold B in D. destruct D as (-> & D & R'). conjs; auto.
  - eapply (decoded_full W ltac:(auto using word_size_range)); [|exact D]. lia.
  - apply R'.
  - rewrite (wat_tell W HW _ _ Hw'), app_length, L0. auto.
  - apply R'.
Qed.
Print Assumptions C09_lossless_long.

(** C10: for every budget and precision the encoder advances the stream by exactly the
    number of bits it returns, never more than maxbits (nor [full_bits]); the decoder
    with the same parameters returns the same number and stops at the same place. *)
Theorem C10_same_count : forall W P buf off data maxbits maxprec,
  word_size W -> buffer_ok W buf -> (1 <= length data <= 64)%nat -> coeffs_ok P data ->
  (off + Nat.min maxbits (full_bits (Nat.min P maxprec) (length data)) <= W * length buf)%nat ->
  let '(c, s) := encode_ints W P (stream_wseek W (stream_open buf) off) maxbits maxprec data in
  let s1 := stream_rseek W (snd (stream_flush W s)) off in
  let '(c', _, s') := decode_ints W P s1 maxbits maxprec (length data) in
  fault s = false /\ fault s' = false /\
  (c <= maxbits)%nat /\ (c <= full_bits (Nat.min P maxprec) (length data))%nat /\ c' = c /\
  stream_wtell W s = (off + c)%nat /\ stream_rtell W s' = (off + c)%nat.
Proof.
  intros W P buf off data maxbits maxprec HW Hb Hl Hr Hc.
  pose proof (encode_decode W P buf off data maxbits maxbits maxprec HW Hb Hl Hr Hc ltac:(lia)) as R.
  cbv zeta in R. destruct R as (E & _ & Hw & Ht & R1 & R2 & R). rewrite E. cbv zeta.
  destruct (decode_ints W P _ maxbits maxprec (length data)) as [[c data'] s2].
  destruct R as (-> & D & R & _).
  assert (data <> []) as Hne by (destruct data; [cbn in Hl; lia|congruence]).
  pose proof (ecode_full P maxprec data Hne).
  conjs; auto; try apply Hw; try apply R; rewrite firstn_length; lia.
Qed.
Print Assumptions C10_same_count.

Example C10_nonvacuous :
  let '(c, s) := encode_ints 8 32 (stream_wseek 8 (stream_open (repeat 255 12)) 3) 40 20 [99; 4294967295; 0; 77777777] in
  let '(c', data', s') := decode_ints 8 32 (stream_rseek 8 (snd (stream_flush 8 s)) 3) 40 20 4 in
  c = 40%nat /\ c' = 40%nat /\ stream_rtell 8 s' = 43%nat /\ data' = [0; 4292870144; 0; 77594624].
Proof. vm_compute. auto. Qed.

(** C10 on arbitrary input: decoding whatever bits are in memory never consumes more
    than maxbits, returns the asked number of P-bit values, and stops exactly after
    the bits it reports. *)
Theorem C10_decode_any_input : forall W P buf off maxbits maxprec size,
  word_size W -> buffer_ok W buf -> (size <= 64)%nat -> (off + maxbits <= W * length buf)%nat ->
  let s := stream_rseek W (stream_open buf) off in
  let '(c, data, s') := decode_ints W P s maxbits maxprec size in
  (c <= maxbits)%nat /\ length data = size /\ coeffs_ok P data /\
  s' = stream_rseek W (stream_open buf) (off + c) /\ fault s' = false.
Proof.
  intros W P buf off maxbits maxprec size HW0 Hb Hs Hc. cbv zeta. pose proof (word_size_range W HW0) as HW.
  pose proof (rat_rseek W HW (stream_open buf) off Hb eq_refl ltac:(cbn; lia)) as R.
  change (mem (stream_open buf)) with buf in R.
  rewrite (decoders_agree W HW P buf off) by auto.
  pose proof (decode_any W HW P buf off _ maxbits maxprec size R Hc) as D.
  destruct (decode_many_ints W P _ maxbits maxprec size) as [[c data] s'].
  destruct D as (D1 & D2 & D3 & D4). conjs; auto; [|apply D4].
  pose proof (rat_rseek W HW (stream_open buf) (off + c) Hb eq_refl ltac:(cbn; lia)) as R'.
  eapply (rat_unique W HW); [exact D4|exact R'|lia].
Qed.
Print Assumptions C10_decode_any_input.

Example C10_any_nonvacuous :
  let s := stream_rseek 8 (stream_open [171; 205; 239; 18; 52]) 2 in
  fst (decode_ints 8 32 s 30 32 4) = (30%nat, [905969664; 2113929216; 150994944; 234881024]).
Proof. vm_compute. reflexivity. Qed.

(** C11: the stream for a smaller budget is a prefix of the stream for a larger one:
    the first bits are the same ones, and there are just as many as the budget allows. *)
Theorem C11_prefix : forall W P buf off data small large maxprec,
  word_size W -> buffer_ok W buf -> (1 <= length data <= 64)%nat -> coeffs_ok P data ->
  (small <= large)%nat ->
  (off + Nat.min large (full_bits (Nat.min P maxprec) (length data)) <= W * length buf)%nat ->
  let s0 := stream_wseek W (stream_open buf) off in
  let '(c1, s1) := encode_ints W P s0 small maxprec data in
  let '(c2, s2) := encode_ints W P s0 large maxprec data in
  c1 = Nat.min small c2 /\
  (forall i, (i < off + c1)%nat ->
    mem_bit W (mem (snd (stream_flush W s1))) i = mem_bit W (mem (snd (stream_flush W s2))) i).
Proof.
  intros W P buf off data small large maxprec HW0 Hb Hl Hr Hle Hc. cbv zeta. pose proof (word_size_range W HW0) as HW.
  pose proof (encode_decode W P buf off data small small maxprec HW0 Hb Hl Hr ltac:(lia) ltac:(lia)) as R.
  pose proof (encode_decode W P buf off data large large maxprec HW0 Hb Hl Hr ltac:(lia) ltac:(lia)) as Q.
  cbv zeta in R, Q. destruct R as (E1 & _). destruct Q as (E2 & _). rewrite E1, E2. clear E1 E2.
  set (C := ecode P (kmin_of P maxprec) 0 data).
  assert (data <> []) as Hne by (destruct data; [cbn in Hl; lia|congruence]).
  pose proof (ecode_full P maxprec data Hne) as Hf. fold C in Hf.
  split; [rewrite !firstn_length; lia|]. intros i Hi.
  assert (length (firstn small C) <= length (firstn large C))%nat as Hll by (rewrite !firstn_length; lia).
  assert (off + length (firstn large C) <= W * length buf)%nat as Hcl by (rewrite !firstn_length; lia).
  destruct (flush_readable W HW buf off (firstn small C) Hb ltac:(lia)) as ((_ & _ & R1) & F1 & L1 & P1).
  destruct (flush_readable W HW buf off (firstn large C) Hb ltac:(lia)) as ((_ & _ & R2) & F2 & L2 & P2).
  set (m1 := mem (snd (stream_flush W (put W _ (firstn small C))))) in *.
  set (m2 := mem (snd (stream_flush W (put W _ (firstn large C))))) in *.
  assert (forall m, length m = length buf -> mem_bit W m i = nth i (membits W m) false) as N.
  { intros m Lm. rewrite (nth_flat W HW), Lm. destruct (Nat.ltb_spec i (W * length buf)); auto; lia. }
  rewrite !N by auto.
  destruct (le_lt_dec off i) as [Ho|Ho].
  - replace i with (off + (i - off))%nat by lia. rewrite <- !nth_skipn_add.
    rewrite <- (nth_firstn_lt false (length (firstn small C)) _ (skipn off (membits W m1))) by lia.
    rewrite <- (nth_firstn_lt false (length (firstn large C)) _ (skipn off (membits W m2))) by lia.
    rewrite R1, R2. rewrite firstn_length in Hi. rewrite !nth_firstn_lt by lia. auto.
  - rewrite <- (nth_firstn_lt false off _ (membits W m1)), <- (nth_firstn_lt false off _ (membits W m2)) by lia.
    congruence.
Qed.
Print Assumptions C11_prefix.

(** C11: decoding only the first [cut] bits of a code made with budget [maxbits].
    Let [prec <= maxprec] be a precision whose complete code (its size is what the
    encoder returns when given precision [prec] and an unlimited budget) fits in
    [cut] bits; then every decoded coefficient agrees with the original one in the top
    [prec] bits.  If it does not fit with room to spare, all lower bits are zero. *)
Theorem C11_truncated_decode : forall W P buf off data maxbits maxprec cut prec buf2 unlimited,
  word_size W -> buffer_ok W buf -> (1 <= length data <= 64)%nat -> coeffs_ok P data ->
  (cut <= maxbits)%nat -> (prec <= maxprec)%nat -> (maxprec <= P)%nat ->
  (off + Nat.min maxbits (full_bits maxprec (length data)) <= W * length buf)%nat ->
  buffer_ok W buf2 -> (full_bits P (length data) <= W * length buf2)%nat -> (full_bits P (length data) <= unlimited)%nat ->
  let needed := fst (encode_ints W P (stream_open buf2) unlimited prec data) in
  let '(_, s) := encode_ints W P (stream_wseek W (stream_open buf) off) maxbits maxprec data in
  let s := stream_rseek W (snd (stream_flush W s)) off in
  let '(c, data', s') := decode_ints W P s cut maxprec (length data) in
  fault s' = false /\ length data' = length data /\
  stream_rtell W s' = (off + c)%nat /\ (c <= cut)%nat /\
  ((needed <= cut)%nat -> forall i, (i < length data)%nat ->
     nth i data' 0 / 2 ^ Z.of_nat (P - prec) = nth i data 0 / 2 ^ Z.of_nat (P - prec)) /\
  ((cut <= needed)%nat -> forall i, (i < length data)%nat ->
     nth i data' 0 mod 2 ^ Z.of_nat (P - prec) = 0).
Proof.
  intros W P buf off data maxbits maxprec cut prec buf2 unlimited HW0 Hb Hl Hr Hcut Hp HpP Hc Hb2 Hc2 Hu. cbv zeta.
  pose proof (word_size_range W HW0) as HW.
  assert (data <> []) as Hne by (destruct data; [cbn in Hl; lia|congruence]).
  assert (kmin_of P prec = P - prec)%nat as Ek by (unfold kmin_of; destruct (Nat.ltb_spec prec P); lia).
  assert (kmin_of P maxprec = P - maxprec)%nat as Ek2 by (unfold kmin_of; destruct (Nat.ltb_spec maxprec P); lia).
  assert (fst (encode_ints W P (stream_open buf2) unlimited prec data) = length (ecode P (P - prec) 0 data)) as ->.
  { pose proof (wat_open W HW buf2 Hb2) as Hw.
    pose proof (ecode_full P prec data Hne) as Hf. rewrite Ek in Hf.
    assert (full_bits (Nat.min P prec) (length data) <= full_bits P (length data))%nat as Hff.
    { unfold full_bits. assert (Nat.min P prec * length data <= P * length data)%nat by (apply Nat.mul_le_mono_r; lia). lia. }
    rewrite (encode_ints_put W HW P _ [] unlimited prec data ltac:(lia) Hw).
    - cbn [fst]. rewrite Ek, firstn_all2 by lia. auto.
    - unfold cap. cbn [length mem stream_open]. rewrite Ek, firstn_all2 by lia. cbn. lia. }
  rewrite <- (Nat.min_r P maxprec) in Hc by lia.
  pose proof (encode_decode W P buf off data maxbits cut maxprec HW0 Hb Hl Hr Hc Hcut) as R.
  cbv zeta in R. destruct R as (E & _ & _ & _ & R1 & R2 & R). rewrite E. cbv zeta.
  destruct (decode_ints W P _ cut maxprec (length data)) as [[c data'] s2].
  destruct R as (-> & (D1 & _ & D2) & R & _).
  destruct (D2 (P - prec)%nat ltac:(lia)) as [Q1 Q2].
  conjs; auto; try apply R. rewrite firstn_length. lia.
Qed.
Print Assumptions C11_truncated_decode.

Example C11_nonvacuous :
  let data := [99; 4294967295; 0; 77777777] in
  let needed := fst (encode_ints 8 32 (stream_open (repeat 0 20)) 1000 7 data) in
  let '(c, s) := encode_ints 8 32 (stream_wseek 8 (stream_open (repeat 255 30)) 3) 100 32 data in
  let '(c', data', s') := decode_ints 8 32 (stream_rseek 8 (snd (stream_flush 8 s)) 3) 33 32 4 in
  needed = 24%nat /\ c = 100%nat /\ c' = 33%nat /\ data' = [0; 4286578688; 0; 75497472] /\
  map (fun d => d / 2 ^ 25) data' = map (fun d => d / 2 ^ 25) data.
Proof. vm_compute. auto. Qed.

(** C12: for groups of at most 64 coefficients both encoders return the same count and
    leave the very same stream, for every budget and precision; both decoders return
    the same on every input. *)
Theorem C12_encoders_agree : forall W P buf off data maxbits maxprec,
  word_size W -> buffer_ok W buf -> (1 <= length data <= 64)%nat -> coeffs_ok P data ->
  (off + Nat.min maxbits (full_bits (Nat.min P maxprec) (length data)) <= W * length buf)%nat ->
  let s := stream_wseek W (stream_open buf) off in
  encode_ints W P s maxbits maxprec data = encode_many_ints W P s maxbits maxprec data.
Proof.
  intros W P buf off data maxbits maxprec HW Hb Hl Hr Hc.
  pose proof (encode_decode W P buf off data maxbits maxbits maxprec HW Hb Hl Hr Hc ltac:(lia)) as R.
  cbv zeta in R |- *. destruct R as (E1 & E2 & _). congruence.
Qed.
Print Assumptions C12_encoders_agree.

Theorem C12_decoders_agree : forall W P buf off maxbits maxprec size,
  word_size W -> buffer_ok W buf -> (size <= 64)%nat -> (off + maxbits <= W * length buf)%nat ->
  let s := stream_rseek W (stream_open buf) off in
  decode_ints W P s maxbits maxprec size = decode_many_ints W P s maxbits maxprec size.
Proof.
  intros W P buf off maxbits maxprec size HW0 Hb Hs Hc. cbv zeta. pose proof (word_size_range W HW0) as HW.
  pose proof (rat_rseek W HW (stream_open buf) off Hb eq_refl ltac:(cbn; lia)) as R.
  exact (decoders_agree W HW P buf off _ maxbits maxprec size Hs R Hc).
Qed.
Print Assumptions C12_decoders_agree.

Example C12_nonvacuous :
  let data := [12; 0; 3; 4294967295] in
  encode_many_ints 8 32 (stream_wseek 8 (stream_open (repeat 9 30)) 3) 60 30 data =
    encode_ints 8 32 (stream_wseek 8 (stream_open (repeat 9 30)) 3) 60 30 data /\
  fst (encode_ints 8 32 (stream_wseek 8 (stream_open (repeat 9 30)) 3) 60 30 data) = 60%nat.
Proof. vm_compute. auto. Qed.
