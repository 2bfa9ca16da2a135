(** Proofs about the bit stream model: a stream is abstracted to the list of
    bits written so far ([wbits]) or still to be read ([rbits]). *)
From Coq Require Import ZArith Lia List Bool Arith.
From Verif Require Import ListAux Bits Bitstream.
Import ListNotations.
Local Open Scope Z_scope.

(** ** Memory *)
Lemma upd_length {A} (l : list A) i v : length (upd l i v) = length l.
Proof. revert i; induction l; destruct i; simpl; auto. Qed.

Lemma upd_firstn {A} (l : list A) i v : firstn i (upd l i v) = firstn i l.
Proof. revert i; induction l; destruct i; simpl; auto. f_equal; auto. Qed.

Lemma upd_firstn_S {A} (l : list A) i v :
  (i < length l)%nat -> firstn (S i) (upd l i v) = firstn i l ++ [v].
Proof.
  revert i; induction l; destruct i; intros; try (simpl in *; lia).
  - reflexivity.
  - cbn [upd firstn app]. f_equal. apply IHl. simpl in *; lia.
Qed.

Lemma upd_skipn {A} (l : list A) i v k : (i < k)%nat -> skipn k (upd l i v) = skipn k l.
Proof.
  revert i k; induction l; intros; destruct k; try lia; simpl; auto.
  destruct i; simpl; auto. apply IHl. lia.
Qed.

Lemma upd_nth {A} (l : list A) i j v d :
  nth j (upd l i v) d = if ((i =? j) && (i <? length l))%nat%bool then v else nth j l d.
Proof.
  revert i j; induction l as [|a l IH]; intros.
  - destruct i, j; simpl; try reflexivity; now rewrite andb_false_r.
  - destruct i, j; simpl; auto. apply IH.
Qed.

Lemma upd_Forall {A} (P : A -> Prop) l i v : Forall P l -> P v -> Forall P (upd l i v).
Proof.
  intros H; revert i; induction H; intros; destruct i; simpl; constructor; auto.
Qed.

Section W.
Variable W : nat.
Hypothesis HW : (1 <= W <= 64)%nat.

Notation word := (word W).
Notation flat := (flat_map (zbits W)).

Lemma flat_length l : length (flat l) = (W * length l)%nat.
Proof. induction l; simpl; [lia|]. rewrite app_length, zbits_length, IHl. lia. Qed.

(** A memory of words. *)
Definition wfmem (m : list Z) : Prop := Forall (fun w => 0 <= w < 2 ^ Z.of_nat W) m.

Lemma word_range v : 0 <= word v < 2 ^ Z.of_nat W.
Proof. apply Z.mod_pos_bound. apply pow2_pos; lia. Qed.

Lemma word_id v : 0 <= v < 2 ^ Z.of_nat W -> word v = v.
Proof. apply Z.mod_small. Qed.

Lemma zbits_word n v : (n <= W)%nat -> zbits n (word v) = zbits n v.
Proof. apply zbits_mod_le. Qed.

(** ** Writer *)
Definition winv (s : stream) : Prop :=
  (bits s < W)%nat /\ 0 <= buffer s < 2 ^ Z.of_nat (bits s) /\ wfmem (mem s).

Definition wbits (s : stream) : list bool :=
  flat (firstn (ptr s) (mem s)) ++ zbits (bits s) (buffer s).

Lemma flat_app a b : flat (a ++ b) = flat a ++ flat b.
Proof. apply flat_map_app. Qed.

Lemma wbits_length s : (ptr s <= length (mem s))%nat -> length (wbits s) = stream_wtell W s.
Proof.
  intros. unfold wbits, stream_wtell.
  rewrite app_length, flat_length, zbits_length, firstn_length_le; lia.
Qed.

(** Everything a writer leaves alone. *)
Definition wframe (s s' : stream) : Prop :=
  length (mem s') = length (mem s) /\ (ptr s <= ptr s')%nat /\
  skipn (ptr s') (mem s') = skipn (ptr s') (mem s) /\
  firstn (ptr s) (mem s') = firstn (ptr s) (mem s).

Lemma wframe_refl s : wframe s s.
Proof. repeat split; auto. Qed.





Lemma wframe_trans a b c : wframe a b -> wframe b c -> wframe a c.
Proof.
  intros (L1 & P1 & S1 & F1) (L2 & P2 & S2 & F2). repeat split; try congruence; try lia.
  - rewrite S2. eapply skipn_mono_eq; [|exact S1]; lia.
  - rewrite <- F1. eapply firstn_mono_eq; [|exact F2]; lia.
Qed.

Lemma write_word_spec s v :
  (ptr s < length (mem s))%nat -> 0 <= v < 2 ^ Z.of_nat W -> wfmem (mem s) ->
  let s' := stream_write_word s v in
  firstn (ptr s') (mem s') = firstn (ptr s) (mem s) ++ [v] /\
  wframe s s' /\ fault s' = fault s /\ wfmem (mem s') /\ ptr s' = S (ptr s) /\
  bits s' = bits s /\ buffer s' = buffer s.
Proof.
  intros Hp Hv Hm s'. subst s'. unfold stream_write_word; cbn [ptr mem fault bits buffer].
  split; [apply upd_firstn_S; auto|].
  split; [|].
  - unfold wframe; cbn [ptr mem]. rewrite upd_length. repeat split; auto.
    + apply upd_skipn; lia.
    + apply upd_firstn.
  - split; [|split; [apply upd_Forall; auto|auto]].
    apply Nat.ltb_lt in Hp. rewrite Hp. apply orb_false_r.
Qed.

Lemma div_pow_add v a b : 0 <= a -> 0 <= b -> v / 2 ^ (a + b) = v / 2 ^ a / 2 ^ b.
Proof.
  intros. rewrite Z.pow_add_r by lia. rewrite Z.div_div; auto.
  - pose proof (pow2_pos a ltac:(lia)); lia.
  - apply pow2_pos; lia.
Qed.

Lemma write_drain_spec fuel : forall value n s V,
  (W <= bits s)%nat -> (bits s < W * (fuel + 1))%nat -> (1 <= fuel)%nat ->
  (W = 64 -> bits s < 2 * W)%nat ->
  (bits s - W <= n)%nat -> (n < 64)%nat ->
  buffer s = word V ->
  Z.shiftr value (Z.of_nat (n + W - bits s)) = V / 2 ^ Z.of_nat W ->
  fault s = false -> wfmem (mem s) ->
  (ptr s + bits s / W <= length (mem s))%nat ->
  let s' := write_drain W fuel value n s in
  (bits s' < W)%nat /\ fault s' = false /\ wfmem (mem s') /\ wframe s s' /\
  (ptr s' = ptr s + bits s / W)%nat /\ (bits s' = bits s mod W)%nat /\
  exists V', buffer s' = word V' /\
    flat (firstn (ptr s') (mem s')) ++ zbits (bits s') V' =
    flat (firstn (ptr s) (mem s)) ++ zbits (bits s) V.
Proof.
  induction fuel; intros value n s V Hb Hf Hfu H64 Hn Hn64 HV Hval Hfault Hm Hcap; [lia|].
  assert (bits s / W = S ((bits s - W) / W))%nat as Hdiv.
  { replace (bits s) with (bits s - W + 1 * W)%nat at 1 by lia.
    rewrite Nat.div_add by lia. lia. }
  assert (bits s mod W = (bits s - W) mod W)%nat as Hmod.
  { replace (bits s) with (bits s - W + 1 * W)%nat at 1 by lia.
    rewrite Nat.mod_add by lia. lia. }
  cbn [write_drain].
  set (s1 := set_bits (bits s - W) s).
  assert (ptr s1 = ptr s /\ mem s1 = mem s /\ fault s1 = fault s /\ buffer s1 = buffer s
          /\ bits s1 = bits s - W)%nat as (P1 & M1 & F1 & B1 & Bi1) by (repeat split).
  destruct (write_word_spec s1 (buffer s1)) as (Hfn & Hfr & Hfa & Hwm & Hp2 & Hb2 & Hbu2).
  { rewrite P1, M1. lia. }
  { rewrite B1, HV. apply word_range. }
  { rewrite M1; auto. }
  set (s2 := stream_write_word s1 (buffer s1)) in *.
  set (s3 := chk _ s2).
  assert (fault s3 = false) as F3.
  { subst s3. unfold chk; cbn [fault]. rewrite Hfa, F1, Hfault, Hb2, Bi1. cbn [orb].
    replace ((bits s - W <=? n) && (n - (bits s - W) <? 64))%nat%bool with true; auto.
    symmetry. apply andb_true_iff. split; [apply Nat.leb_le|apply Nat.ltb_lt]; lia. }
  assert (ptr s3 = ptr s2 /\ mem s3 = mem s2 /\ bits s3 = bits s2)%nat as (P3 & M3 & Bi3) by (repeat split).
  set (s4 := set_buffer _ s3).
  assert (ptr s4 = S (ptr s) /\ mem s4 = mem s2 /\ bits s4 = bits s - W /\ fault s4 = false)%nat
    as (P4 & M4 & Bi4 & F4).
  { repeat split; auto. }
  assert (buffer s4 = word (V / 2 ^ Z.of_nat W)) as Bu4.
  { subst s4. unfold set_buffer at 1; cbn [buffer]. f_equal.
    rewrite Bi3, Hb2, Bi1. rewrite <- Hval. do 2 f_equal. lia. }
  assert (flat (firstn (ptr s4) (mem s4)) ++ zbits (bits s4) (V / 2 ^ Z.of_nat W) =
          flat (firstn (ptr s) (mem s)) ++ zbits (bits s) V) as Hbits.
  { change (ptr s4) with (ptr s2). rewrite M4, Hfn, P1, M1, flat_app, <- app_assoc. f_equal.
    cbn [flat_map]. rewrite app_nil_r, B1, HV, zbits_word by lia.
    rewrite Bi4. replace (bits s) with (W + (bits s - W))%nat at 2 by lia.
    rewrite zbits_app. reflexivity. }
  assert (wframe s s4) as Hfr4.
  { destruct Hfr as (A1 & A2 & A3 & A4).
    unfold wframe. change (mem s4) with (mem s2). change (ptr s4) with (ptr s2).
    rewrite P1, M1 in *. auto. }
  destruct ((W <? 64) && (W <=? bits s4))%nat%bool eqn:Eloop.
  - apply andb_true_iff in Eloop. destruct Eloop as [E1 E2].
    apply Nat.ltb_lt in E1. apply Nat.leb_le in E2.
    assert (1 <= fuel)%nat as Hfu1.
    { destruct fuel; [|lia]. rewrite Nat.mul_add_distr_l, !Nat.mul_1_r in Hf. lia. }
    assert (bits s4 < W * (fuel + 1))%nat as Hfu2.
    { rewrite Nat.mul_add_distr_l, Nat.mul_succ_r, Nat.mul_1_r in Hf.
      rewrite Nat.mul_add_distr_l, Nat.mul_1_r. lia. }
    destruct (IHfuel value n s4 (V / 2 ^ Z.of_nat W)) as (R1 & R2 & R3 & R4 & R5 & R6 & V' & R7 & R8); auto; try lia.
    + rewrite Bi4. replace (n + W - (bits s - W))%nat with ((n + W - bits s) + W)%nat by lia.
      rewrite Nat2Z.inj_add, <- Z.shiftr_shiftr by lia. rewrite Hval.
      rewrite Z.shiftr_div_pow2 by lia. reflexivity.
    + rewrite M4, P4, Bi4. destruct Hfr4 as [L _]. rewrite M4 in L. rewrite L. lia.
    + rewrite Bi4 in R5, R6. conjs; auto; try lia.
      * eapply wframe_trans; eauto.
      * exists V'. split; auto. rewrite R8. exact Hbits.
  - assert (bits s4 < W)%nat as Hlt.
    { apply andb_false_iff in Eloop. destruct Eloop as [E|E];
        [apply Nat.ltb_ge in E|apply Nat.leb_gt in E]; lia. }
    rewrite (Nat.div_small (bits s - W)) in Hdiv by lia. rewrite (Nat.mod_small (bits s - W)) in Hmod by lia.
    conjs; auto; try lia.
    + exists (V / 2 ^ Z.of_nat W). split; auto.
Qed.

Lemma winv_ptr_cap s n :
  winv s -> (stream_wtell W s + n < W * (length (mem s) + 1))%nat ->
  (ptr s + (bits s + n) / W <= length (mem s))%nat.
Proof.
  intros (Hb & _ & _) H. unfold stream_wtell in H.
  assert ((bits s + n) / W < length (mem s) + 1 - ptr s)%nat as H1.
  { apply Nat.div_lt_upper_bound; [lia|].
    rewrite Nat.mul_sub_distr_l. assert (ptr s <= length (mem s))%nat by nia. nia. }
  lia.
Qed.

(** stream_write_bits appends the n low bits of value. *)
Lemma write_bits_spec s value n :
  winv s -> fault s = false -> 0 <= value < 2 ^ 64 -> (n <= 64)%nat ->
  (stream_wtell W s + n < W * (length (mem s) + 1))%nat ->
  let '(r, s') := stream_write_bits W s value n in
  winv s' /\ fault s' = false /\ wframe s s' /\
  r = value / 2 ^ Z.of_nat n /\
  wbits s' = wbits s ++ zbits n value /\
  stream_wtell W s' = (stream_wtell W s + n)%nat.
Proof.
  intros Hinv Hf Hv Hn Hcap0.
  pose proof (winv_ptr_cap _ _ Hinv Hcap0) as Hcap.
  destruct Hinv as (Hb & Hbuf & Hm).
  unfold stream_write_bits.
  set (s1 := chk _ s).
  assert (fault s1 = false) as F1.
  { subst s1. unfold chk; cbn [fault]. rewrite Hf.
    replace (bits s <? 64)%nat with true; auto. symmetry; apply Nat.ltb_lt; lia. }
  set (s2 := set_buffer _ s1).
  set (s3 := set_bits _ s2).
  set (V := buffer s + value * 2 ^ Z.of_nat (bits s)).
  assert (buffer s3 = word V) as B3.
  { subst s3 s2 V. unfold set_bits, set_buffer; cbn [buffer bits].
    change (buffer s1) with (buffer s). change (bits s1) with (bits s).
    rewrite Z.shiftl_mul_pow2 by lia. unfold Bitstream.word, u64.
    replace (2 ^ 64) with (2 ^ Z.of_nat 64) by reflexivity.
    rewrite Zplus_mod_idemp_r.
    rewrite Z.add_mod by (pose proof (pow2_pos (Z.of_nat W)); lia).
    assert (forall x, (x mod 2 ^ Z.of_nat 64) mod 2 ^ Z.of_nat W = x mod 2 ^ Z.of_nat W) as Hmm.
    { intros x. rewrite <- Znumtheory.Zmod_div_mod; auto; try (apply pow2_pos; lia).
      exists (2 ^ Z.of_nat (64 - W)). rewrite <- Z.pow_add_r by lia. f_equal; lia. }
    rewrite Hmm. rewrite <- Z.add_mod by (pose proof (pow2_pos (Z.of_nat W)); lia).
    reflexivity. }
  assert (bits s3 = bits s + n)%nat as Bi3 by reflexivity.
  assert (ptr s3 = ptr s /\ mem s3 = mem s /\ fault s3 = false) as (P3 & M3 & F3) by (repeat split; auto).
  assert (zbits (bits s + n) V = zbits (bits s) (buffer s) ++ zbits n value) as HV.
  { unfold V. apply zbits_concat; auto. }
  rewrite Bi3.
  (* common end of the function *)
  assert (forall value' n' s4 V',
    (bits s4 < W)%nat -> fault s4 = false -> wfmem (mem s4) -> wframe s s4 ->
    (n' < 64)%nat -> buffer s4 = word V' -> Z.shiftr value' (Z.of_nat n') = value / 2 ^ Z.of_nat n ->
    flat (firstn (ptr s4) (mem s4)) ++ zbits (bits s4) V' = wbits s ++ zbits n value ->
    stream_wtell W s4 = (stream_wtell W s + n)%nat ->
    let s5 := chk (n' <? 64)%nat (chk (bits s4 <? W)%nat s4) in
    let s6 := set_buffer (Z.land (buffer s5) (word (Z.shiftl 1 (Z.of_nat (bits s5)) - 1))) s5 in
    winv s6 /\ fault s6 = false /\ wframe s s6 /\
    Z.shiftr value' (Z.of_nat n') = value / 2 ^ Z.of_nat n /\
    wbits s6 = wbits s ++ zbits n value /\ stream_wtell W s6 = (stream_wtell W s + n)%nat) as Hend.
  { intros value' n' s4 V' Hb4 F4 M4 Fr4 Hn' B4 Hr Hw Ht s5 s6.
    assert (fault s5 = false) as F5.
    { subst s5. unfold chk; cbn [fault]. rewrite F4.
      apply Nat.ltb_lt in Hb4. apply Nat.ltb_lt in Hn'. rewrite Hb4, Hn'. reflexivity. }
    change (bits s5) with (bits s4) in s6. change (buffer s5) with (buffer s4) in s6.
    assert (buffer s6 = V' mod 2 ^ Z.of_nat (bits s4)) as B6.
    { subst s6; unfold set_buffer; cbn [buffer].
      rewrite Z.shiftl_mul_pow2, Z.mul_1_l by lia.
      pose proof (pow2_pos (Z.of_nat (bits s4)) ltac:(lia)).
      rewrite word_id.
      2:{ split; [lia|]. assert (2 ^ Z.of_nat (bits s4) <= 2 ^ Z.of_nat W); [|lia].
          apply Z.pow_le_mono_r; lia. }
      rewrite land_ones_mod by lia. rewrite B4. unfold Bitstream.word.
      rewrite <- Znumtheory.Zmod_div_mod; auto; try (apply pow2_pos; lia).
      exists (2 ^ Z.of_nat (W - bits s4)). rewrite <- Z.pow_add_r by lia. f_equal; lia. }
    split; [|split; [|split; [|split; [|split]]]]; auto.
    - split; [exact Hb4|]. split; [|exact M4].
      rewrite B6. apply Z.mod_pos_bound. apply pow2_pos; lia.
    - unfold wbits. change (ptr s6) with (ptr s4). change (mem s6) with (mem s4).
      change (bits s6) with (bits s4). rewrite B6, zbits_mod. exact Hw. }
  destruct (Nat.leb_spec W (bits s + n)) as [Hge|Hlt].
  - (* the buffer is full *)
    destruct (write_drain_spec 65 (Z.shiftr value 1) (n - 1) s3 V)
      as (R1 & R2 & R3 & R4 & R5 & R6 & V' & R7 & R8); auto; try lia; try nia.
    { rewrite Bi3. rewrite Z.shiftr_shiftr by lia.
      replace (1 + Z.of_nat (n - 1 + W - (bits s + n))) with (Z.of_nat (W - bits s)) by lia.
      rewrite Z.shiftr_div_pow2 by lia. unfold V.
      replace (Z.of_nat W) with (Z.of_nat (bits s) + Z.of_nat (W - bits s)) by lia.
      rewrite div_pow_add by lia. rewrite Z.div_add by (pose proof (pow2_pos (Z.of_nat (bits s))); lia).
      rewrite (Z.div_small (buffer s)) by lia. reflexivity. }
    set (s4 := write_drain W 65 (Z.shiftr value 1) (n - 1) s3) in *.
    apply (Hend _ _ _ V'); auto; try lia.
    + rewrite Z.shiftr_shiftr by lia. replace (1 + Z.of_nat (n - 1)) with (Z.of_nat n) by lia.
      apply Z.shiftr_div_pow2; lia.
    + rewrite R8, P3, M3, Bi3, HV. unfold wbits. rewrite app_assoc. reflexivity.
    + unfold stream_wtell. rewrite R5, R6, P3, Bi3.
      pose proof (Nat.div_mod (bits s + n) W ltac:(lia)). nia.
  - apply (Hend _ _ _ V); auto; try lia.
    + split; [reflexivity|]. split; [auto|]. split; reflexivity.
    + apply Z.shiftr_div_pow2; lia.
    + rewrite P3, M3, Bi3, HV. unfold wbits. rewrite app_assoc. reflexivity.
    + unfold stream_wtell. rewrite P3, Bi3. lia.
Qed.

Lemma write_bit_spec s b :
  winv s -> fault s = false ->
  (stream_wtell W s + 1 < W * (length (mem s) + 1))%nat ->
  let '(r, s') := stream_write_bit W s b in
  r = b /\ winv s' /\ fault s' = false /\ wframe s s' /\
  wbits s' = wbits s ++ [b] /\ stream_wtell W s' = S (stream_wtell W s).
Proof.
  intros Hinv Hf Hcap0. pose proof (winv_ptr_cap _ _ Hinv Hcap0) as Hcap.
  destruct Hinv as (Hb & Hbuf & Hm). unfold stream_write_bit.
  set (V := buffer s + Z.b2z b * 2 ^ Z.of_nat (bits s)).
  set (s1 := set_buffer _ s). set (s2 := set_bits _ s1).
  assert (0 <= V < 2 ^ Z.of_nat (S (bits s))) as HVr.
  { unfold V. rewrite pow2_S. destruct b; simpl Z.b2z; lia. }
  assert (2 ^ Z.of_nat (S (bits s)) <= 2 ^ Z.of_nat W) as Hle by (apply Z.pow_le_mono_r; lia).
  assert (buffer s2 = V) as B2.
  { subst s2 s1; unfold set_bits, set_buffer; cbn [buffer].
    rewrite Z.shiftl_mul_pow2 by lia. apply word_id. fold V. lia. }
  assert (zbits (S (bits s)) V = zbits (bits s) (buffer s) ++ [b]) as HV.
  { replace (S (bits s)) with (bits s + 1)%nat by lia. unfold V.
    rewrite zbits_concat by auto. destruct b; reflexivity. }
  assert (bits s2 = S (bits s) /\ ptr s2 = ptr s /\ mem s2 = mem s /\ fault s2 = fault s)%nat
    as (Bi2 & P2 & M2 & F2) by (repeat split).
  split; [reflexivity|]. rewrite Bi2.
  destruct (Nat.eqb_spec (S (bits s)) W) as [E|E].
  - destruct (write_word_spec s2 (buffer s2)) as (Hfn & Hfr & Hfa & Hwm & Hp2 & Hb2 & Hbu2).
    { rewrite P2, M2.
      replace (bits s + 1)%nat with W in Hcap by lia. rewrite Nat.div_same in Hcap by lia. lia. }
    { rewrite B2. lia. }
    { rewrite M2; auto. }
    set (s3 := stream_write_word s2 (buffer s2)) in *.
    set (s4 := set_bits 0 _).
    assert (bits s4 = 0 /\ ptr s4 = ptr s3 /\ mem s4 = mem s3 /\ fault s4 = fault s3)%nat
      as (Bi4 & P4 & M4 & F4) by (repeat split).
    split; [|split; [|split; [|split]]].
    + split; [lia|]. split; [|rewrite M4; auto]. rewrite Bi4. simpl. lia.
    + rewrite F4, Hfa, F2. auto.
    + destruct Hfr as (A1&A2&A3&A4). unfold wframe. rewrite P4, M4, P2, M2 in *. auto.
    + unfold wbits. rewrite Bi4, P4, M4. cbn [zbits]. rewrite app_nil_r, Hfn, flat_app, P2, M2.
      cbn [flat_map]. rewrite app_nil_r, B2, <- app_assoc, <- HV. do 2 f_equal; lia.
    + unfold stream_wtell. rewrite Bi4, P4, Hp2, P2. lia.
  - split; [|split; [|split; [|split]]].
    + split; [lia|]. rewrite Bi2, B2, M2. auto.
    + rewrite F2; auto.
    + repeat split; auto.
    + unfold wbits. rewrite Bi2, P2, M2, B2, HV. rewrite app_assoc. reflexivity.
    + unfold stream_wtell. rewrite Bi2, P2. lia.
Qed.

(** Padding *)
Lemma pad_loop_spec fuel : forall s,
  (bits s < fuel + W)%nat -> fault s = false -> wfmem (mem s) ->
  0 <= buffer s < 2 ^ Z.of_nat W -> 0 <= buffer s < 2 ^ Z.of_nat (bits s) ->
  (ptr s + bits s / W <= length (mem s))%nat ->
  let s' := pad_loop W fuel s in
  winv s' /\ fault s' = false /\ wframe s s' /\
  wbits s' = flat (firstn (ptr s) (mem s)) ++ zbits (bits s) (buffer s) /\
  stream_wtell W s' = stream_wtell W s.
Proof.
  induction fuel; intros s Hfu Hf Hm Hbu Hbi Hcap; cbn [pad_loop].
  - split; [split; [lia|auto]|]. split; auto. split; [apply wframe_refl|]. split; reflexivity.
  - destruct (Nat.leb_spec W (bits s)) as [Hge|Hlt].
    2:{ split; [split; [lia|auto]|]. split; auto. split; [apply wframe_refl|]. split; reflexivity. }
    assert (bits s / W = S ((bits s - W) / W))%nat as Hdiv.
    { replace (bits s) with (bits s - W + 1 * W)%nat at 1 by lia.
      rewrite Nat.div_add by lia. lia. }
    destruct (write_word_spec s (buffer s)) as (Hfn & Hfr & Hfa & Hwm & Hp2 & Hb2 & Hbu2); auto; [lia|].
    set (s1 := stream_write_word s (buffer s)) in *.
    set (s2 := set_bits _ _).
    assert (bits s2 = bits s - W /\ ptr s2 = S (ptr s) /\ mem s2 = mem s1 /\ fault s2 = false /\ (buffer s2 = 0)%Z)%nat
      as (Bi2 & P2 & M2 & F2 & Bu2).
    { repeat split; auto. change (fault s2) with (fault s1). congruence. }
    assert (wframe s s2) as Fr2.
    { destruct Hfr as (A1&A2&A3&A4). unfold wframe. change (ptr s2) with (ptr s1). rewrite M2. auto. }
    destruct (IHfuel s2) as (R1 & R2 & R3 & R4 & R5); [lia|exact F2|exact Hwm|..].

    + rewrite Bu2. split; [lia|]. apply pow2_pos; lia.
    + rewrite Bu2. split; [lia|]. apply pow2_pos; lia.
    + rewrite P2, Bi2, M2. destruct Hfr as [L _]. rewrite L. lia.
    + split; auto. split; auto. split; [eapply wframe_trans; eauto|]. split.
      * rewrite R4, M2. change (ptr s2) with (ptr s1). rewrite Hfn, flat_app, <- app_assoc. f_equal.
        cbn [flat_map]. rewrite app_nil_r, Bu2, Bi2.
        replace (bits s) with (W + (bits s - W))%nat at 2 by lia.
        rewrite zbits_app, Z.div_small by lia. reflexivity.
      * rewrite R5. unfold stream_wtell. rewrite Bi2, P2. nia.
Qed.

Lemma pad_spec s n :
  winv s -> fault s = false ->
  (stream_wtell W s + n < W * (length (mem s) + 1))%nat ->
  let s' := stream_pad W s n in
  winv s' /\ fault s' = false /\ wframe s s' /\
  wbits s' = wbits s ++ repeat false n /\ stream_wtell W s' = (stream_wtell W s + n)%nat.
Proof.
  intros Hinv Hf Hcap0 s'. pose proof (winv_ptr_cap _ _ Hinv Hcap0) as Hcap.
  destruct Hinv as (Hb & Hbuf & Hm). subst s'. unfold stream_pad.
  set (s1 := set_bits (bits s + n) s).
  assert (2 ^ Z.of_nat (bits s) <= 2 ^ Z.of_nat W) by (apply Z.pow_le_mono_r; lia).
  assert (2 ^ Z.of_nat (bits s) <= 2 ^ Z.of_nat (bits s + n)) by (apply Z.pow_le_mono_r; lia).
  destruct (pad_loop_spec (S (bits s1)) s1) as (R1 & R2 & R3 & R4 & R5); auto.
  { lia. }
  { change (buffer s1) with (buffer s). lia. }
  { change (buffer s1) with (buffer s). change (bits s1) with (bits s + n)%nat. lia. }
  split; auto. split; auto. split; [exact R3|]. split.
  - rewrite R4. change (ptr s1) with (ptr s). change (mem s1) with (mem s).
    change (buffer s1) with (buffer s). change (bits s1) with (bits s + n)%nat.
    unfold wbits. rewrite <- app_assoc. f_equal.
    rewrite zbits_app, Z.div_small, zbits_0 by lia. reflexivity.
  - rewrite R5. unfold stream_wtell. change (ptr s1) with (ptr s).
    change (bits s1) with (bits s + n)%nat. lia.
Qed.

(** Flushing pads with zeros to the next word boundary. *)
Definition padding (k : nat) : nat := ((W - k mod W) mod W)%nat.

Lemma padding_le k : (padding k < W)%nat.
Proof. apply Nat.mod_upper_bound; lia. Qed.

Lemma padding_aligned k : ((k + padding k) mod W = 0)%nat.
Proof.
  unfold padding. pose proof (Nat.mod_upper_bound k W ltac:(lia)).
  destruct (Nat.eq_dec (k mod W) 0) as [E|E].
  - rewrite E, Nat.sub_0_r, Nat.mod_same, Nat.add_0_r by lia. auto.
  - rewrite (Nat.mod_small (W - k mod W)) by lia.
    pose proof (Nat.div_mod k W ltac:(lia)) as D.
    replace (k + (W - k mod W))%nat with ((k / W + 1) * W)%nat by nia.
    apply Nat.mod_mul; lia.
Qed.

Lemma padding_zero k : (k mod W = 0)%nat -> padding k = 0%nat.
Proof. intros E. unfold padding. rewrite E, Nat.sub_0_r. apply Nat.mod_same; lia. Qed.

Lemma wtell_mod s : (bits s < W)%nat -> (stream_wtell W s mod W = bits s)%nat.
Proof.
  intros. unfold stream_wtell. rewrite Nat.add_comm, Nat.mul_comm, Nat.mod_add by lia.
  apply Nat.mod_small; auto.
Qed.

Lemma flush_spec s :
  winv s -> fault s = false ->
  (stream_wtell W s <= W * length (mem s))%nat ->
  let '(k, s') := stream_flush W s in
  k = padding (stream_wtell W s) /\
  winv s' /\ fault s' = false /\ wframe s s' /\ bits s' = 0%nat /\
  wbits s' = wbits s ++ repeat false k /\ stream_wtell W s' = (stream_wtell W s + k)%nat.
Proof.
  intros Hinv Hf Hcap. unfold stream_flush.
  destruct Hinv as (Hb & Hrest). assert (winv s) as Hinv by (split; auto).
  assert ((W - bits s) mod W = padding (stream_wtell W s))%nat as ->.
  { unfold padding. rewrite wtell_mod; auto. }
  set (k := padding (stream_wtell W s)).
  split; [reflexivity|].
  destruct (Nat.eqb_spec k 0) as [E|E].
  - rewrite E. cbn [repeat]. rewrite app_nil_r, Nat.add_0_r.
    conjs; auto; [apply wframe_refl|].
    assert (stream_wtell W s mod W = 0)%nat as H0.
    { pose proof (padding_aligned (stream_wtell W s)) as A. fold k in A. rewrite E, Nat.add_0_r in A. auto. }
    rewrite wtell_mod in H0 by auto. auto.
  - destruct (pad_spec s k) as (R1 & R2 & R3 & R4 & R5); auto.
    { pose proof (padding_le (stream_wtell W s)). fold k in H. nia. }
    conjs; auto.
    rewrite <- (wtell_mod _ (proj1 R1)), R5. unfold k. apply padding_aligned.
Qed.

(** ** Reader *)
Definition rinv (s : stream) : Prop :=
  (bits s < W)%nat /\ 0 <= buffer s < 2 ^ Z.of_nat (bits s) /\ wfmem (mem s) /\
  (bits s <= W * ptr s)%nat.

(** bits still to be read *)
Definition rbits (s : stream) : list bool :=
  zbits (bits s) (buffer s) ++ flat (skipn (ptr s) (mem s)).

Lemma skipn_cons_nth (l : list Z) i : (i < length l)%nat -> skipn i l = nth i l 0 :: skipn (S i) l.
Proof.
  revert i; induction l; intros; [simpl in *; lia|]. destruct i; [reflexivity|].
  cbn [skipn nth]. apply IHl. simpl in *; lia.
Qed.

Lemma wfmem_nth m i : wfmem m -> 0 <= nth i m 0 < 2 ^ Z.of_nat W.
Proof.
  intros H. destruct (le_lt_dec (length m) i).
  - rewrite nth_overflow by auto. pose proof (pow2_pos (Z.of_nat W)); lia.
  - apply (proj1 (Forall_nth _ m) H); auto.
Qed.

(** only the position moves *)
Definition rframe (s s' : stream) : Prop := mem s' = mem s /\ (ptr s <= ptr s')%nat.

(** Loop: invariant in terms of the integer of all bits fetched so far. *)
Lemma read_fill_spec fuel : forall n value s U,
  (bits s < n)%nat -> (n <= 64)%nat -> (n <= bits s + W * fuel)%nat -> (1 <= fuel)%nat ->
  (W = 64 -> n <= bits s + W)%nat ->
  0 <= U < 2 ^ Z.of_nat (bits s) -> value = u64 U ->
  fault s = false -> wfmem (mem s) ->
  (n <= bits s + W * (length (mem s) - ptr s))%nat ->
  let '(v, s') := read_fill W fuel n value s in
  exists U' , v = u64 U' /\ 0 <= U' < 2 ^ Z.of_nat (bits s') /\
    fault s' = false /\ mem s' = mem s /\ (ptr s < ptr s')%nat /\
    (n <= bits s' < n + W)%nat /\ (W * ptr s' + bits s = W * ptr s + bits s')%nat /\
    U' / 2 ^ Z.of_nat (bits s' - W) = buffer s' /\ (W <= bits s')%nat /\
    zbits (bits s') U' ++ flat (skipn (ptr s') (mem s')) =
    zbits (bits s) U ++ flat (skipn (ptr s) (mem s)).
Proof.
  induction fuel; intros n value s U Hb Hn Hfu1 Hfu H64 HU Hval Hf Hm Hcap; [lia|].
  cbn [read_fill].
  assert (ptr s < length (mem s))%nat as Hp.
  { destruct (le_lt_dec (length (mem s)) (ptr s)); auto.
    replace (length (mem s) - ptr s)%nat with 0%nat in Hcap by lia. lia. }
  unfold stream_read_word.
  set (w := nth (ptr s) (mem s) 0).
  set (s1 := set_buffer w _).
  assert (bits s1 = bits s /\ ptr s1 = S (ptr s) /\ mem s1 = mem s /\ buffer s1 = w /\ fault s1 = false)%nat
    as (Bi1 & P1 & M1 & Bu1 & F1).
  { repeat split. subst s1; unfold set_buffer; cbn [fault]. rewrite Hf.
    apply Nat.ltb_lt in Hp. rewrite Hp. reflexivity. }
  set (v1 := u64 _). set (s2 := set_bits _ _).
  assert (bits s2 = bits s + W /\ ptr s2 = S (ptr s) /\ mem s2 = mem s /\ buffer s2 = w /\ fault s2 = false)%nat
    as (Bi2 & P2 & M2 & Bu2 & F2).
  { repeat split; auto. subst s2; unfold set_bits, chk; cbn [fault]. rewrite F1, Bi1.
    replace (bits s <? 64)%nat with true; auto. symmetry; apply Nat.ltb_lt; lia. }
  pose proof (wfmem_nth _ (ptr s) Hm) as Hw. fold w in Hw.
  set (U1 := U + w * 2 ^ Z.of_nat (bits s)).
  assert (v1 = u64 U1) as Hv1.
  { unfold v1, U1. rewrite Hval, Bi1, Z.shiftl_mul_pow2 by lia. unfold u64.
    rewrite <- Z.add_mod by (apply Z.pow_nonzero; lia). reflexivity. }
  assert (0 <= U1 < 2 ^ Z.of_nat (bits s2)) as HU1.
  { rewrite Bi2, Nat2Z.inj_add, Z.pow_add_r by lia. unfold U1.
    pose proof (pow2_pos (Z.of_nat (bits s))). nia. }
  assert (zbits (bits s2) U1 ++ flat (skipn (ptr s2) (mem s2)) =
          zbits (bits s) U ++ flat (skipn (ptr s) (mem s))) as Hbits.
  { rewrite Bi2, P2, M2. unfold U1. rewrite zbits_concat by auto.
    rewrite (skipn_cons_nth _ _ Hp). fold w. cbn [flat_map]. rewrite app_assoc. reflexivity. }
  assert (U1 / 2 ^ Z.of_nat (bits s2 - W) = buffer s2) as Hbuf2.
  { rewrite Bi2, Bu2. replace (bits s + W - W)%nat with (bits s) by lia. unfold U1.
    rewrite Z.div_add by (pose proof (pow2_pos (Z.of_nat (bits s))); lia).
    rewrite Z.div_small by lia. lia. }
  destruct ((W <? 64) && (bits s2 <? n))%nat%bool eqn:E.
  - apply andb_true_iff in E. destruct E as [E1 E2].
    apply Nat.ltb_lt in E1. apply Nat.ltb_lt in E2.
    specialize (IHfuel n v1 s2 U1).
    destruct (read_fill W fuel n v1 s2) as [v s'].
    destruct IHfuel as (U' & R1 & R2 & R3 & R4 & R5 & R6 & R7 & R8 & R9 & R10); auto; try lia.
    + rewrite M2, P2, Bi2.
      replace (length (mem s) - ptr s)%nat with (S (length (mem s) - S (ptr s))) in Hcap by lia.
      rewrite Nat.mul_succ_r in Hcap. lia.
    + exists U'. rewrite Bi2, P2, Nat.mul_succ_r in R7. conjs; auto; try lia.
      rewrite R10. exact Hbits.
  - exists U1. repeat split; auto; try lia.
    apply andb_false_iff in E. destruct E as [E|E];
      [apply Nat.ltb_ge in E|apply Nat.ltb_ge in E]; lia.
Qed.

Lemma zbits_skip_head n m U tl :
  (n <= m)%nat -> firstn n (zbits m U ++ tl) = zbits n U /\
  skipn n (zbits m U ++ tl) = zbits (m - n) (U / 2 ^ Z.of_nat n) ++ tl.
Proof.
  intros. split.
  - rewrite firstn_app, zbits_length, firstn_zbits by lia.
    replace (n - m)%nat with 0%nat by lia. simpl. apply app_nil_r.
  - rewrite skipn_app, zbits_length, skipn_zbits by lia.
    replace (n - m)%nat with 0%nat by lia. reflexivity.
Qed.

Lemma u64_mod_land U n : (n <= 64)%nat ->
  Z.land (u64 U) (u64 (2 ^ Z.of_nat n - 1)) = U mod 2 ^ Z.of_nat n.
Proof.
  intros. pose proof (pow2_pos (Z.of_nat n) ltac:(lia)).
  assert (2 ^ Z.of_nat n <= 2 ^ 64) by (change 64 with (Z.of_nat 64); apply Z.pow_le_mono_r; lia).
  unfold u64. rewrite (Z.mod_small (_ - 1)) by lia. rewrite land_ones_mod by lia.
  rewrite <- Znumtheory.Zmod_div_mod; auto; try lia.
  exists (2 ^ Z.of_nat (64 - n)). change (2 ^ 64) with (2 ^ Z.of_nat 64).
  rewrite <- Z.pow_add_r by lia. f_equal; lia.
Qed.

Lemma rbits_length s : length (rbits s) = (bits s + W * (length (mem s) - ptr s))%nat.
Proof. unfold rbits. rewrite app_length, zbits_length, flat_length, skipn_length. reflexivity. Qed.

(** stream_read_bits returns the next n bits. *)
Lemma read_bits_spec s n :
  rinv s -> fault s = false -> (n <= 64)%nat -> (n <= length (rbits s))%nat ->
  let '(v, s') := stream_read_bits W s n in
  rinv s' /\ fault s' = false /\ rframe s s' /\
  v = bitsz (firstn n (rbits s)) /\ rbits s' = skipn n (rbits s) /\
  stream_rtell W s' = (stream_rtell W s + n)%nat.
Proof.
  intros (Hb & Hbu & Hm & Hpos) Hf Hn Hlen. rewrite rbits_length in Hlen.
  unfold stream_read_bits.
  assert (2 ^ Z.of_nat (bits s) <= 2 ^ 64) as H64.
  { change 64 with (Z.of_nat 64). apply Z.pow_le_mono_r; lia. }
  destruct (Nat.ltb_spec (bits s) n) as [Hlt|Hge].
  - pose proof (read_fill_spec 65 n (buffer s) s (buffer s)) as R.
    destruct (read_fill W 65 n (buffer s) s) as [v s1].
    destruct R as (U & R1 & R2 & R3 & R4 & R5 & R6 & R7 & R8 & R9 & R10); auto; try lia; try nia.
    { unfold u64. rewrite Z.mod_small; lia. }
    set (s2 := set_bits (bits s1 - n) s1).
    assert (bits s2 = bits s1 - n /\ ptr s2 = ptr s1 /\ mem s2 = mem s1 /\ fault s2 = fault s1 /\ buffer s2 = buffer s1)%nat
      as (Bi2 & P2 & M2 & F2 & Bu2) by (repeat split).
    destruct (zbits_skip_head n (bits s1) U (flat (skipn (ptr s1) (mem s1))) ltac:(lia)) as [Z1 Z2].
    assert (firstn n (rbits s) = zbits n U) as Hfst by (rewrite <- Z1, R10; reflexivity).
    assert (skipn n (rbits s) = zbits (bits s1 - n) (U / 2 ^ Z.of_nat n) ++ flat (skipn (ptr s1) (mem s1))) as Hskp
      by (rewrite <- Z2, R10; reflexivity).
    rewrite Hfst, bitsz_zbits.
    rewrite Bi2.
    destruct (Nat.eqb_spec (bits s1 - n) 0) as [E|E].
    + set (s3 := set_buffer 0 s2).
      assert (bits s1 = n) as En by lia.
      split; [|split; [|split; [|split; [|split]]]].
      * unfold rinv. change (bits s3) with (bits s1 - n)%nat. change (buffer s3) with 0.
        change (mem s3) with (mem s1). change (ptr s3) with (ptr s1). rewrite E, R4. simpl. repeat split; auto; lia.
      * change (fault s3) with (fault s1); auto.
      * split; [exact R4|]. change (ptr s3) with (ptr s1). lia.
      * rewrite R1. rewrite En in R2. unfold u64. rewrite !Z.mod_small; auto.
        assert (2 ^ Z.of_nat n <= 2 ^ 64) by (change 64 with (Z.of_nat 64); apply Z.pow_le_mono_r; lia). lia.
      * rewrite Hskp. unfold rbits. change (bits s3) with (bits s1 - n)%nat.
        change (mem s3) with (mem s1). change (ptr s3) with (ptr s1). rewrite E. reflexivity.
      * unfold stream_rtell. change (bits s3) with (bits s1 - n)%nat. change (ptr s3) with (ptr s1). lia.
    + set (s3 := set_buffer _ s2). set (s4 := chk _ s3).
      assert (bits s4 = bits s1 - n /\ ptr s4 = ptr s1 /\ mem s4 = mem s1)%nat as (Bi4 & P4 & M4) by (repeat split).
      assert (fault s4 = false) as F4.
      { subst s4; unfold chk; cbn [fault]. change (fault s3) with (fault s1). rewrite R3.
        replace (n - 1 <? 64)%nat with true; auto. symmetry; apply Nat.ltb_lt; lia. }
      assert (buffer s4 = U / 2 ^ Z.of_nat n) as Bu4.
      { change (buffer s4) with (Z.shiftr (buffer s1) (Z.of_nat (W - (bits s1 - n)))).
        rewrite Z.shiftr_div_pow2 by lia. rewrite <- R8.
        rewrite <- div_pow_add by lia. do 2 f_equal. lia. }
      assert (0 <= U / 2 ^ Z.of_nat n < 2 ^ Z.of_nat (bits s1 - n)) as HUn.
      { pose proof (pow2_pos (Z.of_nat n) ltac:(lia)). split; [apply Z.div_pos; lia|].
        apply Z.div_lt_upper_bound; [lia|]. rewrite <- Z.pow_add_r by lia.
        replace (Z.of_nat n + Z.of_nat (bits s1 - n)) with (Z.of_nat (bits s1)) by lia. lia. }
      split; [|split; [|split; [|split; [|split]]]]; auto.
      * unfold rinv. rewrite Bi4, Bu4, M4, P4, R4. repeat split; auto; try lia.
      * split; [rewrite M4; exact R4|]. rewrite P4; lia.
      * rewrite R1. rewrite Z.shiftl_mul_pow2 by lia.
        replace (2 * 2 ^ Z.of_nat (n - 1)) with (2 ^ Z.of_nat n).
        2:{ rewrite <- pow2_S. do 2 f_equal. lia. }
        apply u64_mod_land; lia.
      * rewrite Hskp. unfold rbits. rewrite Bi4, Bu4, P4, M4. reflexivity.
      * unfold stream_rtell. rewrite Bi4, P4. lia.
  - set (s2 := set_bits _ s). set (s3 := set_buffer _ s2). set (s4 := chk _ s3).
    assert (bits s4 = bits s - n /\ ptr s4 = ptr s /\ mem s4 = mem s)%nat as (Bi4 & P4 & M4) by (repeat split).
    assert (buffer s4 = buffer s / 2 ^ Z.of_nat n) as Bu4.
    { change (buffer s4) with (Z.shiftr (buffer s) (Z.of_nat n)). apply Z.shiftr_div_pow2; lia. }
    assert (fault s4 = false) as F4.
    { subst s4; unfold chk; cbn [fault]. change (fault s3) with (fault s). rewrite Hf.
      replace (n <? 64)%nat with true; auto. symmetry; apply Nat.ltb_lt; lia. }
    destruct (zbits_skip_head n (bits s) (buffer s) (flat (skipn (ptr s) (mem s))) Hge) as [Z1 Z2].
    assert (firstn n (rbits s) = zbits n (buffer s)) as -> by exact Z1.
    assert (skipn n (rbits s) = zbits (bits s - n) (buffer s / 2 ^ Z.of_nat n) ++ flat (skipn (ptr s) (mem s))) as -> by exact Z2.
    assert (0 <= buffer s / 2 ^ Z.of_nat n < 2 ^ Z.of_nat (bits s - n)) as HUn.
    { pose proof (pow2_pos (Z.of_nat n) ltac:(lia)). split; [apply Z.div_pos; lia|].
      apply Z.div_lt_upper_bound; [lia|]. rewrite <- Z.pow_add_r by lia.
      replace (Z.of_nat n + Z.of_nat (bits s - n)) with (Z.of_nat (bits s)) by lia. lia. }
    rewrite bitsz_zbits.
    split; [|split; [|split; [|split; [|split]]]]; auto.
    + unfold rinv. rewrite Bi4, Bu4, M4, P4. repeat split; auto; try lia.
    + split; [exact M4|]. rewrite P4; lia.
    + rewrite Z.shiftl_mul_pow2, Z.mul_1_l by lia. rewrite <- u64_mod_land by lia.
      f_equal. unfold u64. rewrite Z.mod_small; lia.
    + unfold rbits. rewrite Bi4, Bu4, P4, M4. reflexivity.
    + unfold stream_rtell. rewrite Bi4, P4. lia.
Qed.

Lemma zbits_cons n v : (0 < n)%nat -> zbits n v = Z.odd v :: zbits (n - 1) (Z.div2 v).
Proof. destruct n; [lia|]. intros _. cbn [zbits]. rewrite Nat.sub_succ, Nat.sub_0_r. reflexivity. Qed.

Lemma read_bit_spec s b tl :
  rinv s -> fault s = false -> rbits s = b :: tl ->
  let '(v, s') := stream_read_bit W s in
  v = b /\ rinv s' /\ fault s' = false /\ rframe s s' /\ rbits s' = tl /\
  stream_rtell W s' = S (stream_rtell W s).
Proof.
  intros (Hb & Hbu & Hm & Hpos) Hf Hr. unfold stream_read_bit.
  set (s1 := if (bits s =? 0)%nat then _ else s).
  assert (exists s1', s1 = s1' /\ (0 < bits s1 <= W)%nat /\ 0 <= buffer s1 < 2 ^ Z.of_nat (bits s1) /\
    fault s1 = false /\ mem s1 = mem s /\ (ptr s <= ptr s1)%nat /\
    (W * ptr s1 + bits s = W * ptr s + bits s1)%nat /\
    zbits (bits s1) (buffer s1) ++ flat (skipn (ptr s1) (mem s1)) = rbits s) as (s1' & _ & B1 & Bu1 & F1 & M1 & P1 & T1 & R1).
  { exists s1; split; auto. subst s1. destruct (Nat.eqb_spec (bits s) 0) as [E|E].
    - unfold stream_read_word. set (w := nth (ptr s) (mem s) 0).
      set (s1 := set_bits W _).
      assert (ptr s < length (mem s))%nat as Hp.
      { destruct (le_lt_dec (length (mem s)) (ptr s)); auto.
        pose proof (rbits_length s) as L. rewrite Hr, E in L. cbn [length] in L.
        replace (length (mem s) - ptr s)%nat with 0%nat in L by lia. lia. }
      change (bits s1) with W. change (buffer s1) with w. change (mem s1) with (mem s).
      change (ptr s1) with (S (ptr s)). repeat split; auto; try lia.
      + apply wfmem_nth; auto.
      + apply wfmem_nth; auto.
      + subst s1; unfold set_bits, set_buffer; cbn [fault]. rewrite Hf.
        apply Nat.ltb_lt in Hp. rewrite Hp. reflexivity.
      + unfold rbits. rewrite E. cbn [zbits app]. rewrite (skipn_cons_nth _ _ Hp). reflexivity.
    - repeat split; auto; try lia. }
  clearbody s1.
  rewrite Hr, zbits_cons in R1 by lia. cbn [app] in R1. injection R1 as Rb Rt.
  set (s2 := set_bits _ s1). change (buffer s2) with (buffer s1).
  split; [auto|].
  set (s3 := set_buffer _ s2).
  assert (bits s3 = bits s1 - 1 /\ ptr s3 = ptr s1 /\ mem s3 = mem s1 /\ fault s3 = fault s1)%nat
    as (Bi3 & P3 & M3 & F3) by (repeat split).
  assert (buffer s3 = Z.div2 (buffer s1)) as Bu3.
  { change (buffer s3) with (Z.shiftr (buffer s1) 1). symmetry. apply Z.div2_spec. }
  split; [|split; [|split; [|split]]].
  - unfold rinv. rewrite Bi3, Bu3, M3, P3, M1. repeat split; auto; try lia.
    + apply Z.div2_nonneg; lia.
    + assert (2 ^ Z.of_nat (bits s1) = 2 * 2 ^ Z.of_nat (bits s1 - 1)) as E2.
      { rewrite <- pow2_S. do 2 f_equal. lia. }
      rewrite Z.div2_div. apply Z.div_lt_upper_bound; lia.
  - congruence.
  - split; [congruence|lia].
  - unfold rbits. rewrite Bi3, Bu3, P3, M3. exact Rt.
  - unfold stream_rtell. rewrite Bi3, P3. lia.
Qed.

Lemma rewind_rinv s : wfmem (mem s) -> rinv (stream_rewind s).
Proof. intros. unfold rinv, stream_rewind; cbn. repeat split; auto; lia. Qed.

Lemma rewind_winv s : wfmem (mem s) -> winv (stream_rewind s).
Proof. intros. unfold winv, stream_rewind; cbn. repeat split; auto; lia. Qed.

(** all the bits of a memory *)
Definition membits (m : list Z) : list bool := flat m.

Lemma flat_firstn k m : flat (firstn k m) = firstn (W * k) (flat m).
Proof.
  revert m; induction k; intros m.
  - rewrite Nat.mul_0_r. reflexivity.
  - destruct m; [simpl; now rewrite firstn_nil|].
    cbn [firstn flat_map]. rewrite Nat.mul_succ_r, Nat.add_comm, IHk.
    rewrite firstn_app, zbits_length. replace (W + W * k - W)%nat with (W * k)%nat by lia.
    rewrite (firstn_all2 (zbits W z)) by (rewrite zbits_length; lia). reflexivity.
Qed.

Lemma flat_skipn k m : flat (skipn k m) = skipn (W * k) (flat m).
Proof.
  revert m; induction k; intros m.
  - rewrite Nat.mul_0_r. reflexivity.
  - destruct m; [simpl; now rewrite skipn_nil|].
    cbn [skipn flat_map]. rewrite Nat.mul_succ_r, Nat.add_comm, IHk.
    rewrite skipn_app, zbits_length. replace (W + W * k - W)%nat with (W * k)%nat by lia.
    rewrite (skipn_all2 (zbits W z)) by (rewrite zbits_length; lia). reflexivity.
Qed.

(** After flushing, memory starts with the written bits. *)
Lemma flushed_mem s : bits s = 0%nat -> wbits s = firstn (W * ptr s) (membits (mem s)).
Proof. intros E. unfold wbits. rewrite E. cbn [zbits]. rewrite app_nil_r. apply flat_firstn. Qed.

Lemma rewind_rbits s : rbits (stream_rewind s) = membits (mem s).
Proof. reflexivity. Qed.

(** Seeking the reader *)
Lemma rseek_spec s off :
  wfmem (mem s) -> fault s = false -> (off <= W * length (mem s))%nat ->
  let s' := stream_rseek W s off in
  rinv s' /\ fault s' = false /\ mem s' = mem s /\
  rbits s' = skipn off (membits (mem s)) /\ stream_rtell W s' = off.
Proof.
  intros Hm Hf Hoff s'. subst s'. unfold stream_rseek.
  pose proof (Nat.div_mod off W ltac:(lia)) as D.
  pose proof (Nat.mod_upper_bound off W ltac:(lia)) as Hmod.
  set (n := (off mod W)%nat) in *. set (q := (off / W)%nat) in *.
  destruct (Nat.eqb_spec n 0) as [E|E].
  - set (s' := set_bits 0 _).
    assert (bits s' = 0 /\ (buffer s' = 0)%Z /\ ptr s' = q /\ mem s' = mem s /\ fault s' = fault s)%nat
      as (A1 & A2 & A3 & A4 & A5) by (repeat split).
    unfold rinv, rbits, stream_rtell. rewrite A1, A2, A3, A4, A5.
    repeat split; auto; try (simpl; lia).
    cbn [zbits app]. rewrite flat_skipn. unfold membits. f_equal. lia.
  - unfold stream_read_word. cbn [set_ptr ptr mem fault bits buffer].
    set (w := nth q (mem s) 0). set (s' := set_bits _ _).
    assert (q < length (mem s))%nat as Hq by nia.
    assert (bits s' = W - n /\ buffer s' = Z.shiftr w (Z.of_nat n) /\ ptr s' = S q /\ mem s' = mem s)%nat
      as (A1 & A2 & A3 & A4) by (repeat split).
    assert (fault s' = false) as A5.
    { subst s'; unfold set_bits, set_buffer; cbn [fault]. rewrite Hf.
      apply Nat.ltb_lt in Hq. rewrite Hq. reflexivity. }
    rewrite Z.shiftr_div_pow2 in A2 by lia.
    pose proof (wfmem_nth _ q Hm) as Hw. fold w in Hw.
    unfold rinv, rbits, stream_rtell. rewrite A1, A2, A3, A4, A5.
    pose proof (pow2_pos (Z.of_nat n) ltac:(lia)).
    repeat split; auto; try nia.
    + apply Z.div_pos; lia.
    + apply Z.div_lt_upper_bound; [lia|]. rewrite <- Z.pow_add_r by lia.
      replace (Z.of_nat n + Z.of_nat (W - n)) with (Z.of_nat W) by lia. lia.
    + unfold membits. rewrite D, Nat.add_comm, skipn_add, <- flat_skipn.
      rewrite (skipn_cons_nth _ _ Hq). fold w. cbn [flat_map].
      rewrite skipn_app, zbits_length, skipn_zbits by lia.
      replace (n - W)%nat with 0%nat by lia. reflexivity.
Qed.

(** Seeking the writer *)
Lemma wseek_spec s off :
  wfmem (mem s) -> fault s = false -> (off <= W * length (mem s))%nat ->
  let s' := stream_wseek W s off in
  winv s' /\ fault s' = false /\ mem s' = mem s /\
  wbits s' = firstn off (membits (mem s)) /\ stream_wtell W s' = off.
Proof.
  intros Hm Hf Hoff s'. subst s'. unfold stream_wseek.
  pose proof (Nat.div_mod off W ltac:(lia)) as D.
  pose proof (Nat.mod_upper_bound off W ltac:(lia)) as Hmod.
  set (n := (off mod W)%nat) in *. set (q := (off / W)%nat) in *.
  destruct (Nat.eqb_spec n 0) as [E|E].
  - set (s' := set_bits 0 _).
    assert (bits s' = 0 /\ (buffer s' = 0)%Z /\ ptr s' = q /\ mem s' = mem s /\ fault s' = fault s)%nat
      as (A1 & A2 & A3 & A4 & A5) by (repeat split).
    unfold winv, wbits, stream_wtell. rewrite A1, A2, A3, A4, A5.
    repeat split; auto; try (simpl; lia).
    cbn [zbits]. rewrite app_nil_r, flat_firstn. unfold membits. f_equal. lia.
  - cbn [set_ptr ptr mem fault bits buffer chk].
    set (w := nth q (mem s) 0). set (s' := set_bits _ _).
    assert (q < length (mem s))%nat as Hq by nia.
    assert (bits s' = n /\ ptr s' = q /\ mem s' = mem s)%nat as (A1 & A3 & A4) by (repeat split).
    assert (buffer s' = w mod 2 ^ Z.of_nat n) as A2.
    { subst s'. unfold set_bits, set_buffer; cbn [buffer].
      rewrite Z.shiftl_mul_pow2, Z.mul_1_l by lia.
      pose proof (pow2_pos (Z.of_nat n) ltac:(lia)).
      assert (2 ^ Z.of_nat n <= 2 ^ Z.of_nat W) by (apply Z.pow_le_mono_r; lia).
      rewrite word_id by lia. apply land_ones_mod; lia. }
    assert (fault s' = false) as A5.
    { subst s'; unfold set_bits, set_buffer, chk, set_ptr; cbn [fault ptr mem bits buffer]. rewrite Hf.
      apply Nat.ltb_lt in Hq. rewrite Hq. reflexivity. }
    unfold winv, wbits, stream_wtell. rewrite A1, A2, A3, A4, A5.
    pose proof (pow2_pos (Z.of_nat n) ltac:(lia)).
    split; [split; [lia|split; [apply Z.mod_pos_bound; lia|auto]]|].
    split; [reflexivity|]. split; [reflexivity|]. split; [|lia].
    rewrite zbits_mod, flat_firstn. unfold membits.
    rewrite <- (firstn_skipn (W * q) (flat (mem s))) at 2.
    rewrite firstn_app, firstn_firstn, firstn_length_le by (rewrite flat_length; nia).
    replace (min off (W * q)) with (W * q)%nat by lia. f_equal.
    rewrite <- flat_skipn, (skipn_cons_nth _ _ Hq). fold w. cbn [flat_map].
    replace (off - W * q)%nat with n by lia.
    rewrite firstn_app, zbits_length, firstn_zbits by lia.
    replace (n - W)%nat with 0%nat by lia. cbn [firstn]. rewrite app_nil_r. reflexivity.
Qed.

End W.
