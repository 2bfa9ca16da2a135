(** Properties C01-C05: the zfp bit stream (zfp/src/inline/bitstream.c).
    The vocabulary ([wop], [op_bits], [mem_bit], ...) is in StreamSpec.v. *)
From Coq Require Import ZArith Lia List Bool Arith.
From Verif Require Import ListAux Bits Bitstream BitstreamProofs BitstreamProofs2 StreamSpec StreamRuns.
Import ListNotations.
Local Open Scope Z_scope.

(** C01: whatever sequence of bits, multi-bit values and paddings is written to a
    buffer large enough for it, then flushed and rewound, reading back with the
    same sequence of lengths returns every value, and ends where writing ended. *)
Theorem C01_round_trip : forall W buf ops,
  word_size W -> buffer_ok W buf -> Forall op_ok ops -> (total ops <= W * length buf)%nat ->
  let written := do_writes W (stream_open buf) ops in
  let reader := stream_rewind (snd (stream_flush W written)) in
  let '(values, s) := do_reads W reader ops in
  values = map op_value ops /\ fault s = false /\ stream_rtell W s = total ops.
Proof.
  intros W buf ops HW. exact (round_trip W (word_size_range W HW) buf ops).
Qed.
Print Assumptions C01_round_trip.

Example C01_nonvacuous :
  let ops := [PutBits 123456789 27; PutBit true; Pad 70; PutBits (2 ^ 64 - 2) 64; PutBits 5 0] in
  let buf := [1; 2; 3; 4; 5; 6; 7; 8; 9; 10; 11; 12; 13; 14; 15; 16; 17; 18; 19; 20; 21] in
  word_size 8 /\ buffer_ok 8 buf /\ Forall op_ok ops /\ (total ops <= 8 * length buf)%nat /\
  map op_value ops = [123456789; 1; 0; 2 ^ 64 - 2; 0].
Proof.
  cbv zeta. unfold word_size, buffer_ok.
  split; [auto|]. split; [repeat constructor; lia|]. split; [repeat constructor; try lia|].
  split; [cbn; lia|reflexivity].
Qed.

(** C02: two ways of writing the same bits (for instance one n-bit write and n
    one-bit writes) leave the very same stream, from any starting position. *)
Theorem C02_write_grouping_irrelevant : forall W buf off ops1 ops2,
  word_size W -> buffer_ok W buf -> Forall op_ok ops1 -> Forall op_ok ops2 ->
  all_bits ops1 = all_bits ops2 -> (off + total ops1 <= W * length buf)%nat ->
  let s := stream_wseek W (stream_open buf) off in
  do_writes W s ops1 = do_writes W s ops2.
Proof.
  intros W buf off ops1 ops2 HW. exact (same_bits_same_stream W (word_size_range W HW) buf off ops1 ops2).
Qed.
Print Assumptions C02_write_grouping_irrelevant.

Example C02_nonvacuous :
  let ops1 := [PutBits 11 5; Pad 2] in
  let ops2 := [PutBit true; PutBit true; PutBit false; PutBits 1 4] in
  all_bits ops1 = all_bits ops2 /\ Forall op_ok ops1 /\ Forall op_ok ops2 /\ (3 + total ops1 <= 8 * 2)%nat.
Proof. cbn. repeat split; repeat constructor; lia. Qed.

(** C02, returned value: writing the n low bits returns the value without them. *)
Theorem C02_write_bits_returns_rest : forall W buf off ops v n,
  word_size W -> buffer_ok W buf -> Forall op_ok ops -> 0 <= v < 2 ^ 64 -> (n <= 64)%nat ->
  (off + total ops + n <= W * length buf)%nat ->
  let s := do_writes W (stream_wseek W (stream_open buf) off) ops in
  fst (stream_write_bits W s v n) = v / 2 ^ Z.of_nat n.
Proof.
  intros W buf off ops v n HW0 Hb Ho Hv Hn Hc. cbv zeta.
  pose proof (word_size_range W HW0) as HW.
  destruct (wat_wseek W HW (stream_open buf) off) as [A Am]; auto; [cbn; lia|].
  change (mem (stream_open buf)) with buf in *.
  assert (length (firstn off (membits W buf)) = off) as L0.
  { rewrite firstn_length_le; auto. rewrite membits_length by auto. lia. }
  destruct (do_writes_spec W HW ops _ _ A Ho) as [B Bf]. { rewrite L0, Am. lia. }
  pose proof (wat_tell W HW _ _ B) as T. rewrite app_length, L0, all_bits_length in T.
  destruct B as (B1 & B2 & B3 & B4). destruct Bf as [L _]. rewrite Am in L.
  pose proof (write_bits_spec W HW _ v n B1 B2 Hv Hn ltac:(rewrite T, L; nia)) as R.
  destruct (stream_write_bits W _ v n) as [r s']. apply R.
Qed.
Print Assumptions C02_write_bits_returns_rest.

(** C02, reading: an n-bit read at any position returns the integer whose bits are
    those returned by n one-bit reads, and leaves the very same stream. *)
Theorem C02_read_grouping_irrelevant : forall W buf off n,
  word_size W -> buffer_ok W buf -> (n <= 64)%nat -> (off + n <= W * length buf)%nat ->
  let s := stream_rseek W (stream_open buf) off in
  let '(v, s1) := stream_read_bits W s n in
  let '(bs, s2) := read_each W s n in
  s1 = s2 /\ length bs = n /\ 0 <= v < 2 ^ Z.of_nat n /\
  (forall i, (i < n)%nat -> nth i bs false = Z.testbit v (Z.of_nat i)) /\
  (forall i, (i < n)%nat -> nth i bs false = mem_bit W buf (off + i)).
Proof.
  intros W buf off n HW0 Hb Hn Hc. cbv zeta.
  pose proof (word_size_range W HW0) as HW.
  pose proof (rat_rseek W HW (stream_open buf) off Hb eq_refl ltac:(cbn; lia)) as R.
  change (mem (stream_open buf)) with buf in R.
  pose proof (rat_read_bits W HW _ _ _ n R Hn Hc) as R1.
  pose proof (read_each_spec W HW n _ _ _ R Hc) as R2.
  destruct (stream_read_bits W _ n) as [v s1]. destruct (read_each W _ n) as [bs s2].
  destruct R1 as [-> R1], R2 as [-> R2].
  split; [eapply (rat_unique W HW); eauto|].
  set (l := firstn n (skipn off (membits W buf))).
  assert (length l = n) as L.
  { unfold l. rewrite firstn_length_le; auto. rewrite skipn_length, membits_length by auto. lia. }
  pose proof (bitsz_bound l) as Bd. rewrite L in Bd.
  split; auto. split; auto.
  split; intros i Hi.
  - rewrite <- (nth_zbits n) by auto. rewrite (bitsz_zbits_eq n) by auto. auto.
  - transitivity (nth (off + i) (membits W buf) false).
    + unfold l. clear - Hi. revert off i Hi. generalize (membits W buf) as m.
      intros m off i Hi. transitivity (nth i (skipn off m) false).
      * revert i Hi. generalize (skipn off m). clear. induction n; intros; [lia|].
        destruct l; [reflexivity|]. destruct i; [reflexivity|]. cbn. apply IHn. lia.
      * clear. revert off. induction m; intros; destruct off; try reflexivity.
        -- cbn. destruct i; reflexivity.
        -- cbn. apply IHm.
    + rewrite (nth_flat W HW). destruct (Nat.ltb_spec (off + i) (W * length buf)); auto; lia.
Qed.
Print Assumptions C02_read_grouping_irrelevant.

Example C02_read_nonvacuous :
  fst (stream_read_bits 8 (stream_rseek 8 (stream_open [255; 1; 7]) 5) 14) = 14351 /\
  fst (read_each 8 (stream_rseek 8 (stream_open [255; 1; 7]) 5) 14) =
    map (Z.testbit 14351) [0; 1; 2; 3; 4; 5; 6; 7; 8; 9; 10; 11; 12; 13].
Proof. vm_compute. auto. Qed.

(** C03: positions.  Telling after writing gives start plus bits written; flushing
    advances to the next word boundary and returns by how much; seeking, skipping
    and aligning the reader move to exactly the stated position; what is then read
    is the memory content at that position (C02_read_grouping_irrelevant). *)
Theorem C03_write_positions : forall W buf off ops,
  word_size W -> buffer_ok W buf -> Forall op_ok ops -> (off + total ops <= W * length buf)%nat ->
  let s := do_writes W (stream_wseek W (stream_open buf) off) ops in
  let '(k, s') := stream_flush W s in
  stream_wtell W (stream_wseek W (stream_open buf) off) = off /\
  stream_wtell W s = (off + total ops)%nat /\
  stream_wtell W s' = (off + total ops + k)%nat /\
  stream_wtell W s' = round_up W (off + total ops) /\
  (W * stream_size s' = stream_wtell W s')%nat /\
  stream_capacity s' = length buf.
Proof.
  intros W buf off ops HW0 Hb Ho Hc. cbv zeta. pose proof (word_size_range W HW0) as HW.
  pose proof (write_session W HW buf off ops Hb Ho Hc) as S.
  destruct (wat_wseek W HW (stream_open buf) off) as [A Am]; auto; [cbn; lia|].
  change (mem (stream_open buf)) with buf in *.
  assert (length (firstn off (membits W buf)) = off) as L0.
  { rewrite firstn_length_le; auto. rewrite membits_length by auto. lia. }
  destruct (do_writes_spec W HW ops _ _ A Ho) as [B Bf]. { rewrite L0, Am. lia. }
  pose proof (wat_tell W HW _ _ A) as T0. rewrite L0 in T0.
  pose proof (wat_tell W HW _ _ B) as T. rewrite app_length, L0, all_bits_length in T.
  destruct (stream_flush W _) as [k s']. destruct S as (Sk & Sf & Sw & SL & ST & Sb & SM & SN).
  conjs; auto.
  - rewrite ST, Sk. apply padding_round; auto.
  - unfold stream_wtell, stream_size. rewrite Sb. lia.
Qed.
Print Assumptions C03_write_positions.

Theorem C03_read_positions : forall W buf off n,
  word_size W -> buffer_ok W buf -> (off + n <= W * length buf)%nat ->
  let s := stream_rseek W (stream_open buf) off in
  let '(k, a) := stream_align W s in
  stream_rtell W s = off /\
  stream_skip W s n = stream_rseek W (stream_open buf) (off + n) /\
  stream_rtell W (stream_skip W s n) = (off + n)%nat /\
  a = stream_rseek W (stream_open buf) (round_up W off) /\
  (off + k = round_up W off)%nat /\
  stream_rseek W (stream_open buf) 0 = stream_rewind s /\
  fault (stream_skip W s n) = false /\ fault a = false.
Proof.
  intros W buf off n HW0 Hb Hc. cbv zeta. pose proof (word_size_range W HW0) as HW.
  assert (forall p, (p <= W * length buf)%nat -> rat W buf p (stream_rseek W (stream_open buf) p)) as R.
  { intros p Hp. exact (rat_rseek W HW (stream_open buf) p Hb eq_refl Hp). }
  pose proof (R off ltac:(lia)) as R0.
  pose proof (rat_align W HW _ _ _ R0 ltac:(lia)) as Al.
  destruct (stream_align W _) as [k a]. destruct Al as [Ek Al].
  pose proof (rat_skip W HW _ _ _ n R0 Hc) as Sk.
  assert (off + k = round_up W off)%nat as Ek' by (rewrite Ek; apply padding_round; auto).
  assert (round_up W off <= W * length buf)%nat as Hr.
  { unfold round_up. apply Nat.mul_le_mono_l.
    assert ((off + W - 1) / W < length buf + 1)%nat; [|lia].
    apply Nat.div_lt_upper_bound; nia. }
  conjs; auto.
  - apply R0.
  - eapply (rat_unique W HW); [exact Sk|apply R; lia|lia].
  - apply Sk.
  - rewrite Ek' in Al. eapply (rat_unique W HW); [exact Al|apply R; lia|lia].
  - eapply (rat_unique W HW); [apply R; lia| |lia].
    destruct R0 as (R1 & R2 & R3 & _). rewrite <- R3 at 1. apply rat_rewind; auto. apply R1.
  - apply Sk.
  - apply Al.
Qed.
Print Assumptions C03_read_positions.

Example C03_nonvacuous :
  let s := stream_rseek 16 (stream_open [1; 2; 3; 4]) 21 in
  fst (stream_align 16 s) = 11%nat /\ stream_rtell 16 (stream_skip 16 s 30) = 51%nat /\
  round_up 16 21 = 32%nat /\ buffer_ok 16 [1; 2; 3; 4].
Proof. repeat split; try reflexivity. unfold buffer_ok. repeat constructor; lia. Qed.

(** C04: a writer given enough room stays inside the buffer, does nothing
    undefined, and afterwards memory is exactly: the old bits before the start
    position, the bits written, zeros up to the word boundary, the old bits. Whole
    words outside the range written are untouched. *)
Theorem C04_memory_after_write_session : forall W buf off ops,
  word_size W -> buffer_ok W buf -> Forall op_ok ops -> (off + total ops <= W * length buf)%nat ->
  let '(k, s) := stream_flush W (do_writes W (stream_wseek W (stream_open buf) off) ops) in
  (off + total ops + k = round_up W (off + total ops))%nat /\
  fault s = false /\ length (mem s) = length buf /\ buffer_ok W (mem s) /\
  stream_wtell W s = (off + total ops + k)%nat /\
  (forall i, (i < W * length buf)%nat -> mem_bit W (mem s) i =
    if (i <? off)%nat then mem_bit W buf i
    else if (i <? off + total ops)%nat then nth (i - off) (all_bits ops) false
    else if (i <? off + total ops + k)%nat then false
    else mem_bit W buf i) /\
  (forall i, (i < off / W \/ off + total ops + k <= W * i)%nat -> nth i (mem s) 0 = nth i buf 0).
Proof.
  intros W buf off ops HW. exact (write_session_bits W (word_size_range W HW) buf off ops).
Qed.
Print Assumptions C04_memory_after_write_session.

Example C04_nonvacuous :
  mem (snd (stream_flush 8 (do_writes 8 (stream_wseek 8 (stream_open [255; 255; 255; 255]) 12)
                             [PutBits 0 3; PutBit true]))) = [255; 143; 255; 255] /\
  mem (snd (stream_flush 8 (do_writes 8 (stream_wseek 8 (stream_open [255; 255; 255; 255]) 12)
                             [PutBits 0 3; PutBit true; PutBits 3 5]))) = [255; 143; 3; 255].
Proof. split; vm_compute; reflexivity. Qed.

(** C04, necessity of the capacity bound: the library performs no bounds check, so
    a client that writes one bit too many stores outside the buffer. *)
Theorem C04_unchecked_overflow_refuted :
  exists W buf ops, word_size W /\ buffer_ok W buf /\ Forall op_ok ops /\
    total ops = (W * length buf + W)%nat /\ fault (do_writes W (stream_open buf) ops) = true.
Proof.
  exists 8%nat, [0; 0], [PutBits 1 24]. unfold word_size, buffer_ok. repeat split; auto; repeat constructor; try lia.
Qed.
Print Assumptions C04_unchecked_overflow_refuted.

(** C05: copying n bits moves exactly the n bits at the source position to the
    destination position, whatever the two alignments; the source buffer and every
    other destination bit (before the final zero padding) keep their values. *)
Theorem C05_copy : forall W dbuf doff sbuf soff n,
  word_size W -> buffer_ok W dbuf -> buffer_ok W sbuf ->
  (doff + n <= W * length dbuf)%nat -> (soff + n <= W * length sbuf)%nat ->
  let '(d, s) := stream_copy W (stream_wseek W (stream_open dbuf) doff)
                               (stream_rseek W (stream_open sbuf) soff) n in
  let '(k, d') := stream_flush W d in
  s = stream_rseek W (stream_open sbuf) (soff + n) /\ mem s = sbuf /\ fault s = false /\
  fault d' = false /\ stream_wtell W d = (doff + n)%nat /\ length (mem d') = length dbuf /\
  (forall i, (i < W * length dbuf)%nat -> mem_bit W (mem d') i =
    if (i <? doff)%nat then mem_bit W dbuf i
    else if (i <? doff + n)%nat then mem_bit W sbuf (soff + (i - doff))
    else if (i <? round_up W (doff + n))%nat then false
    else mem_bit W dbuf i).
Proof.
  intros W dbuf doff sbuf soff n HW0 Hd Hs Hdn Hsn. pose proof (word_size_range W HW0) as HW.
  pose proof (rat_rseek W HW (stream_open sbuf) soff Hs eq_refl ltac:(cbn; lia)) as R.
  change (mem (stream_open sbuf)) with sbuf in R.
  destruct (wat_wseek W HW (stream_open dbuf) doff) as [A Am]; auto; [cbn; lia|].
  change (mem (stream_open dbuf)) with dbuf in *.
  set (d0 := stream_wseek W (stream_open dbuf) doff) in *.
  assert (length (firstn doff (membits W dbuf)) = doff) as L0.
  { rewrite firstn_length_le; auto. rewrite membits_length by auto. lia. }
  set (l := firstn n (skipn soff (membits W sbuf))).
  assert (length l = n) as L.
  { unfold l. rewrite firstn_length_le; auto. rewrite skipn_length, membits_length by auto. lia. }
  set (ops := map PutBit l).
  assert (all_bits ops = l) as Eb.
  { unfold ops, all_bits. rewrite map_map. clear. induction l; auto. cbn in *. congruence. }
  assert (total ops = n) as Et by (rewrite <- all_bits_length, Eb; auto).
  assert (Forall op_ok ops) as Ho.
  { unfold ops. apply Forall_forall. intros o Hin. apply in_map_iff in Hin. destruct Hin as (b & <- & _). exact I. }
  pose proof (wat_tell W HW _ _ A) as T0. rewrite L0 in T0.
  pose proof (copy_spec W HW d0 sbuf soff (stream_rseek W (stream_open sbuf) soff) n
    (proj1 A) (proj1 (proj2 A)) R Hsn ltac:(rewrite T0, Am; nia)) as C.
  destruct (stream_copy W d0 _ n) as [d s]. destruct C as (C1 & C2 & C3 & C4 & C5 & C6).
  assert (d = do_writes W d0 ops) as Ed.
  { destruct (do_writes_spec W HW ops d0 _ A Ho) as [B Bf]. { rewrite L0, Am. lia. }
    pose proof (wat_tell W HW _ _ B) as T. rewrite app_length, L0, Eb, L in T.
    destruct B as (B1 & B2 & B3 & B4).
    assert (stream_wtell W d = stream_wtell W (do_writes W d0 ops)) as ET by lia.
    unfold stream_wtell in ET.
    destruct (pos_unique W HW _ _ _ _ (proj1 C1) (proj1 B1) ET) as [Ep _].
    apply (wstate_unique W HW); auto; try congruence.
    - rewrite Ep. destruct C3 as [-> _]. destruct Bf as [<- _]. auto.
    - rewrite B4, C5, Eb. destruct A as (_ & _ & _ & ->). reflexivity.
    - destruct C3 as (_ & _ & S1 & _), Bf as (_ & _ & S2 & _). rewrite S1. rewrite Ep at 1. rewrite <- S2. congruence. }
  pose proof (write_session_bits W HW dbuf doff ops Hd Ho ltac:(lia)) as S.
  fold d0 in S. rewrite <- Ed in S. destruct (stream_flush W d) as [k d'].
  destruct S as (S1 & S2 & S3 & S4 & S5 & S6 & S7). rewrite Et, Eb in *.
  pose proof (rat_rseek W HW (stream_open sbuf) (soff + n) Hs eq_refl ltac:(cbn; lia)) as R'.
  conjs; auto; try (apply C4).
  - eapply (rat_unique W HW); [exact C4|exact R'|lia].
  - lia.
  - intros i Hi. rewrite (S6 i Hi), <- S1.
    destruct (Nat.ltb_spec i doff); auto. destruct (Nat.ltb_spec i (doff + n)); auto.
    unfold l. assert (i - doff < n)%nat as Hlt by lia.
    transitivity (nth (soff + (i - doff)) (membits W sbuf) false).
    + clear - Hlt. revert Hlt. generalize (i - doff)%nat as j. generalize (membits W sbuf) as m.
      intros m j Hj. transitivity (nth j (skipn soff m) false).
      * revert j Hj. generalize (skipn soff m). clear. induction n; intros; [lia|].
        destruct l; [reflexivity|]. destruct j; [reflexivity|]. cbn. apply IHn. lia.
      * clear. revert soff. induction m; intros; destruct soff; try reflexivity.
        -- cbn. destruct j; reflexivity.
        -- cbn. apply IHm.
    + rewrite (nth_flat W HW). destruct (Nat.ltb_spec (soff + (i - doff)) (W * length sbuf)); auto; lia.
Qed.
Print Assumptions C05_copy.

Example C05_nonvacuous :
  let '(d, s) := stream_copy 8 (stream_wseek 8 (stream_open [255; 255; 255; 255]) 6)
                               (stream_rseek 8 (stream_open [10; 20; 30; 40]) 3) 19 in
  mem (snd (stream_flush 8 d)) = [127; 160; 240; 0].
Proof. vm_compute. reflexivity. Qed.
