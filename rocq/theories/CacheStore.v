(** Blocks at fixed offsets of a stream, and the tags of the cache. *)
From Coq Require Import ZArith List Bool Arith Lia ZifyNat.
From Verif Require Import ListAux Bits Bitstream BitstreamProofs BitstreamProofs2 StreamSpec StreamRuns.
From Verif Require Import EmbedSpec ZfpCodec ZfpCodecProofs EmbedRuns ZfpXform ZfpArray ZfpApi ZfpCache.
Import ListNotations.
Local Open Scope Z_scope.

Section Store.
Variable W : nat.
Hypothesis HW0 : word_size W.
Variable blkbits : nat.
Hypothesis HB : (blkbits mod W = 0)%nat.
Let HW := word_size_range W HW0.

Lemma blk_words : exists k, blkbits = (W * k)%nat.
Proof. exists (blkbits / W)%nat. pose proof (Nat.div_mod blkbits W ltac:(lia)). lia. Qed.

(** the bits of block b *)
Definition block_bits (m : list Z) (b : nat) : list bool := firstn blkbits (skipn (b * blkbits) (membits W m)).

Lemma padding_mult k : padding W (W * k) = 0%nat.
Proof. unfold padding. rewrite (Nat.mul_comm W k), Nat.mod_mul by lia. rewrite Nat.sub_0_r. apply Nat.mod_same. lia. Qed.

Lemma wseek_open s off : fault s = false -> stream_wseek W s off = stream_wseek W (stream_open (mem s)) off.
Proof. intros H. unfold stream_wseek, stream_open. destruct s as [bi bu pt me fa]. cbn in H. subst fa. cbn. destruct (_ =? 0)%nat; reflexivity. Qed.

(** writing the bits B at block e of any stream *)
Lemma write_block s e n B : wfmem W (mem s) -> fault s = false -> (W * length (mem s) = n * blkbits)%nat -> (e < n)%nat -> length B = blkbits ->
  let s' := snd (stream_flush W (put W (stream_wseek W s (e * blkbits)) B)) in
  fault s' = false /\ wfmem W (mem s') /\ length (mem s') = length (mem s) /\ block_bits (mem s') e = B /\
  (forall b, b <> e -> block_bits (mem s') b = block_bits (mem s) b) /\
  (forall i, (W * i < e * blkbits \/ (e + 1) * blkbits <= W * i)%nat -> nth i (mem s') 0 = nth i (mem s) 0).
Proof.
  intros Hm Hf HL He HLB. destruct blk_words as (k & EK).
  assert (Hoff : (e * blkbits + blkbits <= W * length (mem s))%nat) by (rewrite HL; nia).
  rewrite (wseek_open s) by exact Hf.
  pose proof (write_session W HW (mem s) (e * blkbits) (map PutBit B) Hm (ok_put B)) as S.
  rewrite total_put, all_bits_put, HLB in S. specialize (S Hoff). fold (put W (stream_wseek W (stream_open (mem s)) (e * blkbits)) B) in S.
  destruct (stream_flush W _) as [pad s2]. cbn [snd]. destruct S as (S1 & S2 & S3 & S4 & _ & _ & S7 & S8).
  assert (P0 : pad = 0%nat).
  { rewrite S1. replace (e * blkbits + blkbits)%nat with (W * (k * (e + 1)))%nat by (rewrite EK; lia). apply padding_mult. }
  rewrite P0 in *. clear S1 P0. cbn [repeat app] in S7. rewrite Nat.add_0_r in *.
  assert (L0 : length (firstn (e * blkbits) (membits W (mem s))) = (e * blkbits)%nat) by (apply firstn_length_le; rewrite membits_length by exact HW; lia).
  split; [exact S2|]. split; [exact S3|]. split; [exact S4|]. split; [|split].
  - unfold block_bits. rewrite S7, skipn_app, L0, Nat.sub_diag, skipn_all2 by lia. cbn [skipn app].
    rewrite firstn_app, HLB, Nat.sub_diag. cbn [firstn]. rewrite app_nil_r. apply firstn_all2. lia.
  - intros b Hb. unfold block_bits. rewrite S7. destruct (Nat.lt_ge_cases b e) as [L|L].
    + rewrite skipn_app, firstn_app, skipn_firstn_comm, firstn_firstn, firstn_length, skipn_length, membits_length, L0 by exact HW.
      replace (Nat.min blkbits (e * blkbits - b * blkbits)) with blkbits by nia.
      replace (b * blkbits - e * blkbits)%nat with 0%nat by nia. cbn [skipn].
      replace (blkbits - Nat.min (e * blkbits - b * blkbits) (W * length (mem s) - b * blkbits))%nat with 0%nat by nia.
      cbn [firstn]. apply app_nil_r.
    + rewrite !skipn_app, L0, HLB, (skipn_all2 (firstn _ _)), (skipn_all2 B) by (rewrite ?L0, ?HLB; nia). cbn [app].
      rewrite <- skipn_add. f_equal. f_equal. nia.
  - intros i Hi. apply S8. destruct Hi as [Hi|Hi]; [left|right; lia].
    rewrite EK in Hi |- *. replace (e * (W * k))%nat with (e * k * W)%nat by lia. rewrite Nat.div_mul by lia. nia.
Qed.

(** reading block b *)
Lemma read_block s b n : wfmem W (mem s) -> fault s = false -> (W * length (mem s) = n * blkbits)%nat -> (b < n)%nat ->
  readable W (mem s) (b * blkbits) (block_bits (mem s) b) (stream_rseek W s (b * blkbits)).
Proof.
  intros Hm Hf HL Hb. assert (Hoff : (b * blkbits + blkbits <= W * length (mem s))%nat) by (rewrite HL; nia).
  unfold readable, block_bits. assert (LB : length (firstn blkbits (skipn (b * blkbits) (membits W (mem s)))) = blkbits).
  { apply firstn_length_le. rewrite skipn_length, membits_length by exact HW. lia. }
  rewrite LB. split; [apply rat_rseek; auto; lia|]. split; [lia|reflexivity].
Qed.
End Store.
