(** Further bit stream facts: uniqueness of states, skip/align/copy, and runs of
    several operations. *)
From Coq Require Import ZArith Lia List Bool Arith.
From Verif Require Import ListAux Bits Bitstream BitstreamProofs.
Import ListNotations.
Local Open Scope Z_scope.

Section W.
Variable W : nat.
Hypothesis HW : (1 <= W <= 64)%nat.

Notation word := (word W).
Notation flat := (flat_map (zbits W)).


Lemma flat_inj a b : wfmem W a -> wfmem W b -> length a = length b -> flat a = flat b -> a = b.
Proof.
  intros Ha; revert b; induction Ha as [|x a Hx Ha IH]; intros b Hb L E; destruct b as [|y b]; simpl in *; try lia; auto.
  inversion Hb; subst.
  apply app_eq_len in E; [|rewrite !zbits_length; auto]. destruct E as [E1 E2].
  f_equal; [|apply IH; auto].
  apply (zbits_inj W); auto.
Qed.

Lemma wfmem_firstn k m : wfmem W m -> wfmem W (firstn k m).
Proof.
  intros H. unfold wfmem in *. rewrite Forall_forall in *. intros x Hx. apply H.
  rewrite <- (firstn_skipn k m). apply in_or_app; auto.
Qed.

Lemma pos_unique p1 b1 p2 b2 : (b1 < W)%nat -> (b2 < W)%nat ->
  (W * p1 + b1 = W * p2 + b2)%nat -> p1 = p2 /\ b1 = b2.
Proof.
  intros. assert (p1 = p2).
  { destruct (lt_eq_lt_dec p1 p2) as [[H2|H2]|H2]; auto; exfalso.
    - assert (W * p1 + W <= W * p2)%nat by nia. lia.
    - assert (W * p2 + W <= W * p1)%nat by nia. lia. }
  subst; lia.
Qed.

(** The writer's state is determined by what has been written. *)
Lemma wstate_unique s1 s2 :
  winv W s1 -> winv W s2 -> (ptr s1 <= length (mem s1))%nat -> (ptr s2 <= length (mem s2))%nat ->
  fault s1 = fault s2 -> wbits W s1 = wbits W s2 ->
  skipn (ptr s1) (mem s1) = skipn (ptr s1) (mem s2) ->
  s1 = s2.
Proof.
  intros (B1 & Bu1 & M1) (B2 & Bu2 & M2) P1 P2 F E Sk.
  pose proof (f_equal (@length bool) E) as L. rewrite !wbits_length in L by auto.
  unfold stream_wtell in L. destruct (pos_unique _ _ _ _ B1 B2 L) as [Ep Eb].
  unfold wbits in E. apply app_eq_len in E.
  2:{ rewrite !flat_length, !firstn_length_le by lia. lia. }
  destruct E as [E1 E2].
  apply flat_inj in E1; try (apply wfmem_firstn; auto).
  2:{ rewrite !firstn_length_le by lia. auto. }
  rewrite <- Eb in E2, Bu2. apply zbits_inj in E2; auto.
  destruct s1, s2; cbn in *; subst. f_equal.
  rewrite <- (firstn_skipn ptr0 mem), <- (firstn_skipn ptr0 mem0). congruence.
Qed.

(** ** Positions of the reader *)
Definition rat (m : list Z) (pos : nat) (s : stream) : Prop :=
  rinv W s /\ fault s = false /\ mem s = m /\ stream_rtell W s = pos /\
  rbits W s = skipn pos (membits W m).

Lemma membits_length m : length (membits W m) = (W * length m)%nat.
Proof. apply flat_length; auto. Qed.

Lemma rat_rewind s : wfmem W (mem s) -> fault s = false -> rat (mem s) 0 (stream_rewind s).
Proof.
  intros. split; [apply rewind_rinv; auto|]. conjs; auto.
  unfold stream_rtell, stream_rewind; cbn [ptr bits]. lia.
Qed.

Lemma rat_rseek s off : wfmem W (mem s) -> fault s = false -> (off <= W * length (mem s))%nat ->
  rat (mem s) off (stream_rseek W s off).
Proof.
  intros. destruct (rseek_spec W HW s off) as (A & B & C & D & E); auto.
  repeat split; auto; apply A.
Qed.

Lemma rat_wf m pos s : rat m pos s -> wfmem W m.
Proof. intros ((_&_&H&_)&_&E&_). congruence. Qed.

Lemma rat_unique m pos s1 s2 : rat m pos s1 -> rat m pos s2 -> (pos <= W * length m)%nat -> s1 = s2.
Proof.
  intros ((B1 & Bu1 & M1 & P1) & F1 & E1 & T1 & R1) ((B2 & Bu2 & M2 & P2) & F2 & E2 & T2 & R2) Hpos.
  unfold stream_rtell in *.
  assert (ptr s1 = ptr s2 /\ bits s1 = bits s2) as [Ep Eb].
  { assert (W * ptr s1 + bits s2 = W * ptr s2 + bits s1)%nat as L by lia.
    destruct (pos_unique _ _ _ _ B2 B1 L) as [E E']. auto. }
  rewrite <- R2 in R1. unfold rbits in R1.
  apply app_eq_len in R1; [|rewrite !zbits_length; auto]. destruct R1 as [R1 _].
  rewrite <- Eb in R1, Bu2. apply zbits_inj in R1; auto.
  destruct s1, s2; cbn in *; subst. f_equal; congruence.
Qed.

Lemma rat_read_bits m pos s n : rat m pos s -> (n <= 64)%nat -> (pos + n <= W * length m)%nat ->
  let '(v, s') := stream_read_bits W s n in
  v = bitsz (firstn n (skipn pos (membits W m))) /\ rat m (pos + n) s'.
Proof.
  intros (Hi & Hf & Hm & Ht & Hr) Hn Hc.
  pose proof (read_bits_spec W HW s n Hi Hf Hn) as R.
  destruct (stream_read_bits W s n) as [v s'].
  destruct R as (A & B & C & D & E & F).
  { rewrite Hr, skipn_length, membits_length. lia. }
  split; [congruence|]. destruct C as [C _]. split; auto. split; auto. split; [congruence|].
  split; [lia|]. rewrite E, Hr. rewrite Nat.add_comm. symmetry. apply skipn_add.
Qed.

Lemma rat_read_bit m pos s : rat m pos s -> (pos < W * length m)%nat ->
  let '(v, s') := stream_read_bit W s in
  v = nth pos (membits W m) false /\ rat m (S pos) s'.
Proof.
  intros (Hi & Hf & Hm & Ht & Hr) Hc.
  assert (skipn pos (membits W m) = nth pos (membits W m) false :: skipn (S pos) (membits W m)) as E.
  { clear - Hc HW. rewrite <- membits_length in Hc. revert pos Hc.
    generalize (membits W m). induction l; intros; [simpl in *; lia|].
    destruct pos; [reflexivity|]. cbn [skipn nth]. apply IHl. simpl in *; lia. }
  rewrite E in Hr.
  pose proof (read_bit_spec W HW s _ _ Hi Hf Hr) as R.
  destruct (stream_read_bit W s) as [v s'].
  destruct R as (A & B & C & (D & _) & F & G).
  split; auto. split; auto. split; auto. split; [congruence|]. split; [lia|]. auto.
Qed.

Lemma rat_skip m pos s n : rat m pos s -> (pos + n <= W * length m)%nat ->
  rat m (pos + n) (stream_skip W s n).
Proof.
  intros (Hi & Hf & Hm & Ht & Hr) Hc. unfold stream_skip. rewrite Ht. subst m.
  apply rat_rseek; auto. apply Hi.
Qed.

Lemma rtell_mod s : rinv W s -> bits s = padding W (stream_rtell W s).
Proof.
  intros (B & _ & _ & P). unfold padding, stream_rtell.
  destruct (Nat.eq_dec (bits s) 0) as [E|E].
  - rewrite E, Nat.sub_0_r, Nat.mul_comm, Nat.mod_mul, Nat.sub_0_r, Nat.mod_same by lia. auto.
  - assert ((W * ptr s - bits s) mod W = W - bits s)%nat as ->.
    { assert (1 <= ptr s)%nat by nia.
      replace (W * ptr s - bits s)%nat with ((W - bits s) + (ptr s - 1) * W)%nat by nia.
      rewrite Nat.mod_add by lia. apply Nat.mod_small; lia. }
    replace (W - (W - bits s))%nat with (bits s) by lia. rewrite Nat.mod_small; lia.
Qed.

Lemma rat_align m pos s : rat m pos s -> (pos <= W * length m)%nat ->
  let '(k, s') := stream_align W s in
  k = padding W pos /\ rat m (pos + k) s'.
Proof.
  intros R Hc. pose proof R as (Hi & Hf & Hm & Ht & Hr).
  unfold stream_align. rewrite (rtell_mod _ Hi), Ht. split; auto.
  destruct (Nat.eqb_spec (padding W pos) 0) as [E|E].
  - rewrite E, Nat.add_0_r. auto.
  - apply rat_skip; auto.
    pose proof (padding_aligned W HW pos) as A. pose proof (padding_le W HW pos).
    set (k := padding W pos) in *.
    apply Nat.mod_divides in A; [|lia]. destruct A as [c A]. rewrite A.
    apply Nat.mul_le_mono_l.
    assert (W * c < W * (length m + 1))%nat by nia. nia.
Qed.

(** ** Copying *)
Lemma bitsz_zbits_eq n l : length l = n -> zbits n (bitsz l) = l.
Proof. intros <-. apply zbits_bitsz. Qed.

Lemma copy_step dst m pos src n :
  winv W dst -> fault dst = false -> rat m pos src -> (n <= W)%nat ->
  (pos + n <= W * length m)%nat -> (stream_wtell W dst + n < W * (length (mem dst) + 1))%nat ->
  let '(w, src') := stream_read_bits W src n in
  let '(_, dst') := stream_write_bits W dst (word w) n in
  winv W dst' /\ fault dst' = false /\ wframe dst dst' /\ rat m (pos + n) src' /\
  wbits W dst' = wbits W dst ++ firstn n (skipn pos (membits W m)) /\
  stream_wtell W dst' = (stream_wtell W dst + n)%nat.
Proof.
  intros Hi Hf Hr Hn Hp Hc.
  pose proof (rat_read_bits m pos src n Hr ltac:(lia) Hp) as R.
  destruct (stream_read_bits W src n) as [w src']. destruct R as [-> R].
  set (l := firstn n (skipn pos (membits W m))).
  assert (length l = n) as Hl.
  { unfold l. rewrite firstn_length_le; auto. rewrite skipn_length, membits_length. lia. }
  pose proof (bitsz_bound l) as Hb. rewrite Hl in Hb.
  assert (2 ^ Z.of_nat n <= 2 ^ Z.of_nat W) by (apply Z.pow_le_mono_r; lia).
  assert (2 ^ Z.of_nat W <= 2 ^ 64) by (change 64 with (Z.of_nat 64); apply Z.pow_le_mono_r; lia).
  rewrite word_id by lia.
  pose proof (write_bits_spec W HW dst (bitsz l) n Hi Hf ltac:(lia) ltac:(lia) Hc) as S.
  destruct (stream_write_bits W dst (bitsz l) n) as [r dst'].
  destruct S as (A & B & C & D & E & F). rewrite (bitsz_zbits_eq _ _ Hl) in E. auto 10.
Qed.


Lemma copy_loop_spec fuel : forall dst m pos src n,
  (n <= fuel)%nat ->
  winv W dst -> fault dst = false -> rat m pos src ->
  (pos + n <= W * length m)%nat -> (stream_wtell W dst + n < W * (length (mem dst) + 1))%nat ->
  let '(dst', src', n') := copy_loop W fuel dst src n in
  (n' <= n)%nat /\ (n' <= W)%nat /\
  winv W dst' /\ fault dst' = false /\ wframe dst dst' /\ rat m (pos + (n - n')) src' /\
  wbits W dst' = wbits W dst ++ firstn (n - n') (skipn pos (membits W m)) /\
  stream_wtell W dst' = (stream_wtell W dst + (n - n'))%nat.
Proof.
  induction fuel; intros dst m pos src n Hfu Hi Hf Hr Hp Hc.
  - cbn [copy_loop]. assert (n = 0)%nat as -> by lia. cbn [firstn Nat.sub].
    rewrite app_nil_r, !Nat.add_0_r. conjs; auto; try lia. apply wframe_refl.
  - cbn [copy_loop]. destruct (Nat.ltb_spec W n) as [Hlt|Hge].
    + pose proof (copy_step dst m pos src W Hi Hf Hr ltac:(lia) ltac:(lia) ltac:(lia)) as S.
      destruct (stream_read_bits W src W) as [w src'].
      destruct (stream_write_bits W dst (word w) W) as [r dst'].
      destruct S as (A & B & C & D & E & F).
      specialize (IHfuel dst' m (pos + W)%nat src' (n - W)%nat ltac:(lia) A B D ltac:(lia)).
      destruct (copy_loop W fuel dst' src' (n - W)) as [[dst'' src''] n'].
      destruct IHfuel as (G1 & G2 & G3 & G4 & G5 & G6 & G7 & G8).
      { destruct C as [C _]. rewrite C, F. lia. }
      conjs; auto; try lia.
      * eapply wframe_trans; eauto.
      * replace (pos + (n - n'))%nat with (pos + W + (n - W - n'))%nat by lia. auto.
      * rewrite G7, E, <- app_assoc. f_equal.
        replace (n - n')%nat with (W + (n - W - n'))%nat by lia.
        rewrite firstn_plus. f_equal. f_equal. rewrite <- skipn_add. f_equal. lia.
    + rewrite Nat.sub_diag. cbn [firstn]. rewrite app_nil_r, !Nat.add_0_r.
      conjs; auto; try lia. apply wframe_refl.
Qed.

Lemma copy_spec dst m pos src n :
  winv W dst -> fault dst = false -> rat m pos src ->
  (pos + n <= W * length m)%nat -> (stream_wtell W dst + n < W * (length (mem dst) + 1))%nat ->
  let '(dst', src') := stream_copy W dst src n in
  winv W dst' /\ fault dst' = false /\ wframe dst dst' /\ rat m (pos + n) src' /\
  wbits W dst' = wbits W dst ++ firstn n (skipn pos (membits W m)) /\
  stream_wtell W dst' = (stream_wtell W dst + n)%nat.
Proof.
  intros Hi Hf Hr Hp Hc. unfold stream_copy.
  pose proof (copy_loop_spec n dst m pos src n ltac:(lia) Hi Hf Hr Hp Hc) as L.
  destruct (copy_loop W n dst src n) as [[dst' src'] n'].
  destruct L as (G1 & G2 & G3 & G4 & G5 & G6 & G7 & G8).
  destruct (Nat.eqb_spec n' 0) as [->|E].
  - rewrite Nat.sub_0_r in *. conjs; auto.
  - pose proof (copy_step dst' m (pos + (n - n'))%nat src' n' G3 G4 G6 G2 ltac:(lia)) as S.
    destruct (stream_read_bits W src' n') as [w src''].
    destruct (stream_write_bits W dst' (word w) n') as [r dst''].
    destruct S as (A & B & C & D & F & G).
    { destruct G5 as [G5 _]. rewrite G5. lia. }
    conjs; auto; try lia.
    + eapply wframe_trans; eauto.
    + replace (pos + n)%nat with (pos + (n - n') + n')%nat by lia. auto.
    + rewrite F, G7, <- app_assoc. f_equal.
      replace n with ((n - n') + n')%nat at 3 by lia.
      rewrite firstn_plus. f_equal. f_equal. rewrite <- skipn_add. f_equal. lia.
Qed.

End W.
