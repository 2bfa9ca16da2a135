(** Proofs about sequences of stream operations. *)
From Coq Require Import ZArith Lia List Bool Arith.
From Verif Require Import ListAux Bits Bitstream BitstreamProofs BitstreamProofs2 StreamSpec.
Import ListNotations.
Local Open Scope Z_scope.

Lemma word_size_range W : word_size W -> (1 <= W <= 64)%nat.
Proof. unfold word_size; lia. Qed.

Lemma op_bits_zbits v n : map (fun i => Z.testbit v (Z.of_nat i)) (seq 0 n) = zbits n v.
Proof. symmetry. apply zbits_testbit. Qed.

Lemma op_bits_length o : length (op_bits o) = op_len o.
Proof. destruct o; simpl; auto. - rewrite map_length, seq_length; auto. - apply repeat_length. Qed.

Lemma all_bits_length ops : length (all_bits ops) = total ops.
Proof. induction ops; auto. unfold all_bits, total in *. simpl. rewrite app_length, op_bits_length, IHops. auto. Qed.

Lemma op_value_bits o : op_value o = bitsz (op_bits o).
Proof.
  destruct o; cbn [op_value op_bits].
  - destruct b; reflexivity.
  - rewrite op_bits_zbits, bitsz_zbits. reflexivity.
  - rewrite <- (zbits_0 n), bitsz_zbits. symmetry. apply Z.mod_0_l. pose proof (pow2_pos (Z.of_nat n)); lia.
Qed.

Lemma total_cons o ops : total (o :: ops) = (op_len o + total ops)%nat.
Proof. reflexivity. Qed.
Lemma all_bits_cons o ops : all_bits (o :: ops) = op_bits o ++ all_bits ops.
Proof. reflexivity. Qed.

Section W.
Variable W : nat.
Hypothesis HW : (1 <= W <= 64)%nat.

(** A writer in good order that has written [l]. *)
Definition wat (s : stream) (l : list bool) : Prop :=
  winv W s /\ fault s = false /\ (ptr s <= length (mem s))%nat /\ wbits W s = l.

Lemma wat_tell s l : wat s l -> stream_wtell W s = length l.
Proof. intros (A & B & C & <-). symmetry. apply wbits_length; auto. Qed.

Lemma wframe_cap s s' l' : wframe s s' -> winv W s' -> fault s' = false ->
  wbits W s' = l' -> (stream_wtell W s' < W * (length (mem s) + 1))%nat -> wat s' l'.
Proof.
  intros (L & _) A B C D. split; auto. split; auto. split; auto.
  unfold stream_wtell in D. rewrite L. nia.
Qed.

Lemma do_write_spec s l o :
  wat s l -> op_ok o -> (length l + op_len o <= W * length (mem s))%nat ->
  wat (do_write W s o) (l ++ op_bits o) /\ wframe s (do_write W s o).
Proof.
  intros Hs Ho Hc. pose proof (wat_tell _ _ Hs) as Ht. destruct Hs as (Hi & Hf & Hp & Hb).
  destruct o as [b|v n|n]; cbn [do_write op_len op_ok op_bits] in *.
  - pose proof (write_bit_spec W HW s b Hi Hf ltac:(nia)) as R.
    destruct (stream_write_bit W s b) as [r s']. destruct R as (A & B & C & D & E & F). cbn [snd].
    split; auto. apply (wframe_cap s); auto; [rewrite E, Hb; auto|rewrite F, Ht; nia].
  - rewrite op_bits_zbits.
    pose proof (write_bits_spec W HW s v n Hi Hf ltac:(lia) ltac:(lia) ltac:(nia)) as R.
    destruct (stream_write_bits W s v n) as [r s']. destruct R as (A & B & C & D & E & F). cbn [snd].
    split; auto. apply (wframe_cap s); auto; [rewrite E, Hb; auto|rewrite F, Ht; nia].
  - destruct (pad_spec W HW s n Hi Hf ltac:(nia)) as (A & B & C & D & E).
    split; auto. apply (wframe_cap s); auto; [rewrite D, Hb; auto|rewrite E, Ht; nia].
Qed.

Lemma do_writes_spec ops : forall s l,
  wat s l -> Forall op_ok ops -> (length l + total ops <= W * length (mem s))%nat ->
  wat (do_writes W s ops) (l ++ all_bits ops) /\ wframe s (do_writes W s ops).
Proof.
  induction ops as [|o ops IH]; intros s l Hs Ho Hc.
  - unfold do_writes, all_bits; cbn. rewrite app_nil_r. split; auto. apply wframe_refl.
  - inversion Ho; subst. rewrite total_cons in Hc.
    destruct (do_write_spec s l o Hs) as [A B]; auto; [lia|].
    destruct (IH (do_write W s o) (l ++ op_bits o)) as [C D]; auto.
    { destruct B as [L _]. rewrite L, app_length, op_bits_length. lia. }
    unfold do_writes; cbn [fold_left]. fold (do_writes W (do_write W s o) ops).
    split; [|eapply wframe_trans; eauto].
    rewrite all_bits_cons, app_assoc. exact C.
Qed.

Lemma wat_open buf : wfmem W buf -> wat (stream_open buf) [].
Proof.
  intros. unfold wat, stream_open. split; [apply rewind_winv; auto|]. cbn. repeat split; auto. lia.
Qed.

Lemma wat_wseek s off : wfmem W (mem s) -> fault s = false -> (off <= W * length (mem s))%nat ->
  wat (stream_wseek W s off) (firstn off (membits W (mem s))) /\ mem (stream_wseek W s off) = mem s.
Proof.
  intros. destruct (wseek_spec W HW s off) as (A & B & C & D & E); auto.
  split; auto. split; auto. split; auto. split; auto.
  rewrite C. unfold stream_wtell in E. nia.
Qed.

Lemma flush_wat s l : wat s l -> (length l <= W * length (mem s))%nat ->
  let '(k, s') := stream_flush W s in
  k = padding W (length l) /\ wat s' (l ++ repeat false k) /\ wframe s s' /\ bits s' = 0%nat.
Proof.
  intros Hs Hc. pose proof (wat_tell _ _ Hs) as Ht. destruct Hs as (Hi & Hf & Hp & Hb).
  pose proof (flush_spec W HW s Hi Hf ltac:(lia)) as R.
  destruct (stream_flush W s) as [k s']. destruct R as (A & B & C & D & E & F & G).
  rewrite Ht in A. split; auto. split; auto. apply (wframe_cap s); auto.
  - rewrite F, Hb. auto.
  - rewrite G, Ht, A. pose proof (padding_le W HW (length l)). nia.
Qed.

(** The memory a flushed writer leaves behind. *)
Lemma wat_membits s l : wat s l -> bits s = 0%nat ->
  membits W (mem s) = l ++ skipn (length l) (membits W (mem s)) /\ (length l = W * ptr s)%nat.
Proof.
  intros Hs E. pose proof (wat_tell _ _ Hs) as Ht. destruct Hs as (Hi & Hf & Hp & Hb).
  unfold stream_wtell in Ht. rewrite E, Nat.add_0_r in Ht.
  split; auto. rewrite <- Hb at 1. rewrite (flushed_mem W HW) by auto.
  rewrite Ht. symmetry. apply firstn_skipn.
Qed.


(** Complete description of memory after seek, writes, flush. *)
Lemma write_session buf off ops :
  wfmem W buf -> Forall op_ok ops -> (off + total ops <= W * length buf)%nat ->
  let '(k, s) := stream_flush W (do_writes W (stream_wseek W (stream_open buf) off) ops) in
  k = padding W (off + total ops) /\ fault s = false /\ wfmem W (mem s) /\
  length (mem s) = length buf /\
  stream_wtell W s = (off + total ops + k)%nat /\ bits s = 0%nat /\
  membits W (mem s) = firstn off (membits W buf) ++ all_bits ops ++ repeat false k ++
                      skipn (off + total ops + k) (membits W buf) /\
  (forall i, (i < off / W \/ off + total ops + k <= W * i)%nat -> nth i (mem s) 0 = nth i buf 0).
Proof.
  intros Hb Ho Hc.
  destruct (wat_wseek (stream_open buf) off) as [A Am]; auto; [cbn; lia|].
  change (mem (stream_open buf)) with buf in *.
  set (s0 := stream_wseek W (stream_open buf) off) in *.
  assert (length (firstn off (membits W buf)) = off) as L0.
  { rewrite firstn_length_le; auto. rewrite membits_length by auto. lia. }
  destruct (do_writes_spec ops s0 _ A Ho) as [B Bf]. { rewrite L0, Am. lia. }
  set (s1 := do_writes W s0 ops) in *.
  pose proof (flush_wat s1 _ B) as F.
  destruct (stream_flush W s1) as [k s].
  rewrite app_length, L0, all_bits_length in F.
  destruct F as (Fk & Fw & Ff & Fb). { destruct Bf as [-> _]. rewrite Am. lia. }
  assert (wframe s0 s) as Fr by (eapply wframe_trans; eauto).
  destruct (wat_membits _ _ Fw Fb) as [M ML].
  pose proof (wat_tell _ _ Fw) as T.
  destruct Fr as (FL & FP & FS & FF). rewrite Am in *.
  rewrite !app_length, repeat_length, L0, all_bits_length in M, ML, T.
  split; auto. split; [apply Fw|]. split; [apply Fw|]. split; auto. split; auto. split; auto. split.
  - rewrite M, <- !app_assoc. f_equal. f_equal. f_equal.
    rewrite ML. unfold membits. rewrite <- !flat_skipn by auto. f_equal. auto.
  - intros i [Hi|Hi].
    + assert (ptr s0 = off / W)%nat as P0.
      { unfold s0, stream_wseek, stream_open. destruct (_ =? 0)%nat; reflexivity. }
      rewrite P0 in FF.
      rewrite <- (firstn_skipn (off / W) (mem s)), <- (firstn_skipn (off / W) buf), FF.
      destruct (le_lt_dec (length (firstn (off / W) buf)) i) as [Hl|Hl].
      2:{ rewrite !app_nth1 by auto. auto. }
      exfalso. rewrite firstn_length_le in Hl; [lia|].
      pose proof (Nat.div_mod off W ltac:(lia)). nia.
    + assert (ptr s <= i)%nat by nia.
      rewrite <- (firstn_skipn (ptr s) (mem s)), <- (firstn_skipn (ptr s) buf), FS.
      assert (length (firstn (ptr s) (mem s)) = length (firstn (ptr s) buf)) as EL.
      { rewrite !firstn_length, FL. auto. }
      destruct (le_lt_dec (length (firstn (ptr s) buf)) i) as [Hl|Hl].
      * rewrite !app_nth2 by lia. f_equal. lia.
      * rewrite firstn_length in Hl. rewrite !nth_overflow; auto.
        -- rewrite <- (firstn_skipn (ptr s) buf) in FL. rewrite app_length. rewrite app_length in FL.
           rewrite firstn_length in *. rewrite skipn_length in *. lia.
        -- rewrite app_length, firstn_length, skipn_length. rewrite FL. lia.
Qed.

(** Reads *)
Lemma do_read_spec m pos s o :
  rat W m pos s -> op_ok o -> (pos + op_len o <= W * length m)%nat ->
  firstn (op_len o) (skipn pos (membits W m)) = op_bits o ->
  let '(v, s') := do_read W s o in
  v = op_value o /\ rat W m (pos + op_len o) s'.
Proof.
  intros Hr Ho Hc He. rewrite op_value_bits, <- He.
  destruct o as [b|v n|n]; cbn [do_read op_len op_ok op_bits] in *.
  - pose proof (rat_read_bit W HW m pos s Hr ltac:(lia)) as R.
    destruct (stream_read_bit W s) as [v s']. destruct R as [-> R].
    rewrite Nat.add_1_r. split; auto.
    destruct (skipn pos (membits W m)) as [|x t] eqn:E; [discriminate He|].
    assert (nth pos (membits W m) false = x) as ->.
    { rewrite <- (firstn_skipn pos (membits W m)) at 1. rewrite E.
      assert (length (firstn pos (membits W m)) = pos) as L.
      { rewrite firstn_length_le; auto. rewrite membits_length by auto. lia. }
      rewrite app_nth2, L, Nat.sub_diag by lia. reflexivity. }
    cbn [firstn bitsz]. destruct x; reflexivity.
  - apply rat_read_bits; auto; lia.
  - split; [|apply rat_skip; auto].
    rewrite He, <- (zbits_0 n), bitsz_zbits. symmetry. apply Z.mod_0_l. pose proof (pow2_pos (Z.of_nat n)); lia.
Qed.

Lemma do_reads_spec ops : forall m pos s,
  rat W m pos s -> Forall op_ok ops -> (pos + total ops <= W * length m)%nat ->
  firstn (total ops) (skipn pos (membits W m)) = all_bits ops ->
  let '(v, s') := do_reads W s ops in
  v = map op_value ops /\ rat W m (pos + total ops) s'.
Proof.
  induction ops as [|o ops IH]; intros m pos s Hr Ho Hc He.
  - cbn. rewrite Nat.add_0_r. auto.
  - inversion Ho; subst. rewrite total_cons, ?all_bits_cons in *.
    rewrite firstn_plus in He.
    apply app_eq_len in He.
    2:{ rewrite op_bits_length, firstn_length_le; auto. rewrite skipn_length, membits_length by auto. lia. }
    destruct He as [He1 He2]. rewrite <- skipn_add in He2.
    cbn [do_reads].
    pose proof (do_read_spec m pos s o Hr H1 ltac:(lia) He1) as R.
    destruct (do_read W s o) as [v s']. destruct R as [-> R].
    specialize (IH m (pos + op_len o)%nat s' R H2 ltac:(lia)).
    rewrite (Nat.add_comm pos) in IH at 1. specialize (IH He2).
    destruct (do_reads W s' ops) as [vs s'']. destruct IH as [-> IH].
    cbn [map]. split; auto. rewrite Nat.add_assoc. auto.
Qed.

Lemma round_trip buf ops :
  wfmem W buf -> Forall op_ok ops -> (total ops <= W * length buf)%nat ->
  let s := stream_rewind (snd (stream_flush W (do_writes W (stream_open buf) ops))) in
  let '(vals, s') := do_reads W s ops in
  vals = map op_value ops /\ fault s' = false /\ stream_rtell W s' = total ops.
Proof.
  intros Hb Ho Hc.
  pose proof (write_session buf 0 ops Hb Ho Hc) as S.
  assert (stream_wseek W (stream_open buf) 0 = stream_open buf) as E.
  { unfold stream_wseek. rewrite Nat.mod_0_l, Nat.div_0_l by lia. reflexivity. }
  rewrite E in S. destruct (stream_flush W _) as [k s]. cbn [snd].
  destruct S as (Sk & Sf & Sw & SL & ST & Sb & SM & SN).
  cbn [Nat.add firstn app] in SM.
  pose proof (do_reads_spec ops (mem s) 0 (stream_rewind s) (rat_rewind W HW s Sw Sf) Ho) as R.
  destruct (do_reads W (stream_rewind s) ops) as [v s'].
  destruct R as [-> R].
  - rewrite SL. lia.
  - rewrite SM. cbn [skipn]. rewrite <- all_bits_length. apply firstn_app_len.
  - split; auto. split; apply R.
Qed.

(** The whole stream after writing is determined by the bits written. *)
Lemma same_bits_same_stream buf off ops1 ops2 :
  wfmem W buf -> Forall op_ok ops1 -> Forall op_ok ops2 ->
  all_bits ops1 = all_bits ops2 -> (off + total ops1 <= W * length buf)%nat ->
  do_writes W (stream_wseek W (stream_open buf) off) ops1 =
  do_writes W (stream_wseek W (stream_open buf) off) ops2.
Proof.
  intros Hb H1 H2 E Hc.
  assert (total ops1 = total ops2) as ET by (rewrite <- !all_bits_length; congruence).
  destruct (wat_wseek (stream_open buf) off) as [A Am]; auto; [cbn; lia|].
  change (mem (stream_open buf)) with buf in *.
  set (s0 := stream_wseek W (stream_open buf) off) in *.
  assert (length (firstn off (membits W buf)) = off) as L0.
  { rewrite firstn_length_le; auto. rewrite membits_length by auto. lia. }
  destruct (do_writes_spec ops1 s0 _ A H1) as [B1 F1]. { rewrite L0, Am. lia. }
  destruct (do_writes_spec ops2 s0 _ A H2) as [B2 F2]. { rewrite L0, Am. lia. }
  set (s1 := do_writes W s0 ops1) in *. set (s2 := do_writes W s0 ops2) in *.
  pose proof (wat_tell _ _ B1) as T1. pose proof (wat_tell _ _ B2) as T2.
  rewrite E in *. rewrite <- T2 in T1. unfold stream_wtell in T1.
  destruct B1 as (I1 & X1 & P1 & W1), B2 as (I2 & X2 & P2 & W2).
  destruct (pos_unique W HW _ _ _ _ (proj1 I1) (proj1 I2) T1) as [Ep _].
  apply (wstate_unique W HW); auto; try congruence.
  destruct F1 as (_ & _ & S1 & _), F2 as (_ & _ & S2 & _). rewrite S1. rewrite Ep at 1. rewrite <- S2. congruence.
Qed.

Lemma read_each_spec n : forall m pos s,
  rat W m pos s -> (pos + n <= W * length m)%nat ->
  let '(bs, s') := read_each W s n in
  bs = firstn n (skipn pos (membits W m)) /\ rat W m (pos + n) s'.
Proof.
  induction n; intros m pos s Hr Hc; cbn [read_each].
  - rewrite Nat.add_0_r. auto.
  - pose proof (rat_read_bit W HW m pos s Hr ltac:(lia)) as R.
    destruct (stream_read_bit W s) as [b s']. destruct R as [-> R].
    specialize (IHn m (S pos) s' R ltac:(lia)).
    destruct (read_each W s' n) as [bs s'']. destruct IHn as [-> IH].
    split; [|rewrite <- Nat.add_succ_comm; auto].
    rewrite <- membits_length in Hc by auto. clear - Hc. revert pos Hc.
    induction (membits W m) as [|x l IH]; intros; [simpl in *; lia|].
    destruct pos; [reflexivity|]. cbn [skipn nth]. apply IH. simpl in *; lia.
Qed.

Lemma nth_flat m i : nth i (membits W m) false =
  if (i <? W * length m)%nat then mem_bit W m i else false.
Proof.
  unfold mem_bit, membits. revert i. induction m as [|w m IH]; intros i.
  - cbn. rewrite Nat.mul_0_r. destruct i; reflexivity.
  - cbn [flat_map length]. destruct (le_lt_dec W i) as [Hl|Hl].
    + rewrite app_nth2, zbits_length by (rewrite zbits_length; auto). rewrite IH.
      assert (i / W = S ((i - W) / W))%nat as ->.
      { replace i with (i - W + 1 * W)%nat at 1 by lia. rewrite Nat.div_add by lia. lia. }
      assert (i mod W = (i - W) mod W)%nat as ->.
      { replace i with (i - W + 1 * W)%nat at 1 by lia. rewrite Nat.mod_add by lia. auto. }
      cbn [nth]. destruct (Nat.ltb_spec (i - W) (W * length m)), (Nat.ltb_spec i (W * S (length m))); auto; nia.
    + rewrite app_nth1 by (rewrite zbits_length; auto).
      rewrite nth_zbits by auto. rewrite Nat.div_small, Nat.mod_small by auto. cbn [nth].
      destruct (Nat.ltb_spec i (W * S (length m))); auto; nia.
Qed.

Lemma padding_round k : (k + padding W k = round_up W k)%nat.
Proof.
  unfold round_up, padding.
  pose proof (Nat.div_mod k W ltac:(lia)) as D. pose proof (Nat.mod_upper_bound k W ltac:(lia)).
  set (q := (k / W)%nat) in *. set (r := (k mod W)%nat) in *.
  destruct (Nat.eq_dec r 0) as [E|E].
  - rewrite E, Nat.sub_0_r, Nat.mod_same by lia.
    replace (k + W - 1)%nat with ((W - 1) + q * W)%nat by nia.
    rewrite Nat.div_add, Nat.div_small by lia. nia.
  - rewrite Nat.mod_small by lia.
    replace (k + W - 1)%nat with ((r - 1) + (q + 1) * W)%nat by nia.
    rewrite Nat.div_add, Nat.div_small by lia. nia.
Qed.

(** bit-level reading of [write_session] *)
Lemma write_session_bits buf off ops :
  wfmem W buf -> Forall op_ok ops -> (off + total ops <= W * length buf)%nat ->
  let '(k, s) := stream_flush W (do_writes W (stream_wseek W (stream_open buf) off) ops) in
  (off + total ops + k = round_up W (off + total ops))%nat /\
  fault s = false /\ length (mem s) = length buf /\ wfmem W (mem s) /\
  stream_wtell W s = (off + total ops + k)%nat /\
  (forall i, (i < W * length buf)%nat -> mem_bit W (mem s) i =
    if (i <? off)%nat then mem_bit W buf i
    else if (i <? off + total ops)%nat then nth (i - off) (all_bits ops) false
    else if (i <? off + total ops + k)%nat then false
    else mem_bit W buf i) /\
  (forall i, (i < off / W \/ off + total ops + k <= W * i)%nat -> nth i (mem s) 0 = nth i buf 0).
Proof.
  intros Hb Ho Hc. pose proof (write_session buf off ops Hb Ho Hc) as S.
  destruct (stream_flush W _) as [k s].
  destruct S as (Sk & Sf & Sw & SL & ST & Sb & SM & SN).
  split; [rewrite Sk; apply padding_round|].
  conjs; auto. intros i Hi.
  assert (mem_bit W (mem s) i = nth i (membits W (mem s)) false) as ->.
  { rewrite nth_flat, SL. apply Nat.ltb_lt in Hi. rewrite Hi. auto. }
  assert (mem_bit W buf i = nth i (membits W buf) false) as ->.
  { rewrite nth_flat. apply Nat.ltb_lt in Hi. rewrite Hi. auto. }
  rewrite SM.
  assert (length (firstn off (membits W buf)) = off) as L0.
  { rewrite firstn_length_le; auto. rewrite membits_length by auto. lia. }
  destruct (Nat.ltb_spec i off) as [H1|H1].
  - rewrite app_nth1 by lia. rewrite <- (firstn_skipn off (membits W buf)) at 2.
    rewrite app_nth1 by lia. auto.
  - rewrite app_nth2, L0 by lia.
    destruct (Nat.ltb_spec i (off + total ops)) as [H2|H2].
    + rewrite app_nth1 by (rewrite all_bits_length; lia). auto.
    + rewrite app_nth2, all_bits_length by (rewrite all_bits_length; lia).
      destruct (Nat.ltb_spec i (off + total ops + k)) as [H3|H3].
      * rewrite app_nth1 by (rewrite repeat_length; lia). apply nth_repeat.
      * rewrite app_nth2, repeat_length by (rewrite repeat_length; lia).
        assert (length (firstn (off + total ops + k) (membits W buf)) = off + total ops + k)%nat as L1.
        { rewrite firstn_length_le; auto. rewrite membits_length by auto. lia. }
        rewrite <- (firstn_skipn (off + total ops + k) (membits W buf)) at 2.
        rewrite app_nth2, L1 by lia. f_equal. lia.
Qed.

End W.
