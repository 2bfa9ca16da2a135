(** Coefficient order and the integer block coder. *)
From Coq Require Import ZArith Lia List Bool Arith Permutation.
From Verif Require Import ListAux Bits Bitstream BitstreamProofs BitstreamProofs2 StreamSpec StreamRuns.
From Verif Require Import EmbedSpec ZfpCodec ZfpCodecProofs ZfpCodecProofs2 ZfpCodecProofs3 EmbedProofs EmbedRuns DecodeLocal.
From Verif Require Import ZfpXform BlockSpec LiftProofs XformProofs XformProofs2 NegaProofs.
Import ListNotations.
Local Open Scope Z_scope.

(** ** Order *)
Definition perm_ok (n : nat) (perm : list nat) : Prop :=
  length perm = n /\ NoDup perm /\ Forall (fun p => (p < n)%nat) perm.

Lemma perm_of_ok d : (1 <= d <= 4)%nat -> perm_ok (block_size d) (perm_of d).
Proof.
  intros D. assert (d = 1 \/ d = 2 \/ d = 3 \/ d = 4)%nat as [->|[->|[->| ->]]] by lia;
  (split; [reflexivity|split; [apply nodupb_ok; vm_compute; reflexivity|]]);
  apply Forall_forall; intros x X;
  [ assert (K : forallb (fun p => (p <? block_size 1)%nat) (perm_of 1) = true) by (vm_compute; reflexivity)
  | assert (K : forallb (fun p => (p <? block_size 2)%nat) (perm_of 2) = true) by (vm_compute; reflexivity)
  | assert (K : forallb (fun p => (p <? block_size 3)%nat) (perm_of 3) = true) by (vm_compute; reflexivity)
  | assert (K : forallb (fun p => (p <? block_size 4)%nat) (perm_of 4) = true) by (vm_compute; reflexivity) ];
  rewrite forallb_forall in K; apply Nat.ltb_lt, K, X.
Qed.

Lemma perm_surj n perm i : perm_ok n perm -> (i < n)%nat -> exists k, (k < n)%nat /\ nth k perm 0%nat = i.
Proof.
  intros (L & N & F) I.
  assert (P : incl (seq 0 n) perm).
  { apply NoDup_length_incl; auto; [rewrite seq_length; lia|]. intros x X. apply in_seq.
    rewrite Forall_forall in F. specialize (F x X). lia. }
  assert (In i perm) as J by (apply P, in_seq; lia).
  apply (In_nth _ _ 0%nat) in J as (k & K & E). exists k. split; [lia|assumption].
Qed.

Lemma fwd_order_spec P b perm n : length b = n -> Forall (fun p => (p < n)%nat) perm ->
  fwd_order P b perm = Some (map (fun p => int2uint P (nth p b 0)) perm).
Proof.
  intros L F. induction F as [|p r Hp F IH]; [reflexivity|].
  unfold fwd_order in *. cbn [fold_right]. rewrite (nth_error_some _ _ 0) by lia. cbn [bind].
  rewrite IH. reflexivity.
Qed.

Lemma inv_order_spec P us : forall perm b, length us = length perm -> NoDup perm ->
  Forall (fun p => (p < length b)%nat) perm ->
  exists r, inv_order P us perm b = Some r /\ length r = length b /\
    (forall k, (k < length perm)%nat -> nth (nth k perm 0%nat) r 0 = uint2int P (nth k us 0)) /\
    (forall i, ~ In i perm -> nth i r 0 = nth i b 0).
Proof.
  induction us as [|u us IH]; intros perm b L N F; destruct perm as [|p perm]; try discriminate.
  - exists b. cbn. conjs; auto; lia.
  - inversion N as [|? ? Np Nr]; subst. inversion F as [|? ? Fp Fr]; subst. cbn [inv_order].
    rewrite (proj2 (Nat.ltb_lt _ _) Fp).
    destruct (IH perm (upd b p (uint2int P u))) as (r & R1 & R2 & R3 & R4); auto.
    { rewrite upd_length. assumption. }
    exists r. rewrite upd_length in R2. conjs; auto.
    + intros [|k] K.
      * cbn [nth]. rewrite R4 by assumption. rewrite upd_nth, Nat.eqb_refl, (proj2 (Nat.ltb_lt _ _) Fp). reflexivity.
      * cbn [nth]. apply R3. cbn [length] in K. lia.
    + intros i Ni. cbn [In] in Ni. rewrite R4 by tauto. rewrite upd_nth.
      destruct (Nat.eqb_spec p i); [tauto|reflexivity].
Qed.

(** inverse order of an arbitrary coefficient vector *)
Definition reordered P (perm : list nat) (us r : list Z) : Prop :=
  length r = length us /\ forall k, (k < length us)%nat -> nth (nth k perm 0%nat) r 0 = uint2int P (nth k us 0).

Lemma inv_order_ok P n perm us : perm_ok n perm -> length us = n ->
  exists r, inv_order P us perm (repeat 0 n) = Some r /\ reordered P perm us r.
Proof.
  intros (L & N & F) LU.
  destruct (inv_order_spec P us perm (repeat 0 n)) as (r & R1 & R2 & R3 & _); auto; [lia|now rewrite repeat_length|].
  rewrite repeat_length in R2. exists r. unfold reordered. conjs; auto; [lia|]. intros k K. apply R3. lia.
Qed.

(** ** The block code *)
Definition code (P maxbits maxprec : nat) (data : list Z) : list bool :=
  firstn maxbits (ecode P (kmin_of P maxprec) 0 data).
Definition padded (minbits : nat) (B : list bool) : list bool := B ++ repeat false (minbits - length B).
(** what the decoder makes of a code *)
Definition dec_data (P maxbits maxprec size : nat) (B : list bool) : list Z :=
  let '(ps, _, _) := dcode P (kmin_of P maxprec) size 0 maxbits B in assemble P ps (repeat 0 size).

Lemma padded_length mb B : length (padded mb B) = Nat.max mb (length B).
Proof. unfold padded. rewrite app_length, repeat_length. lia. Qed.

Lemma uint_of_int_small v : 0 <= v < 2 ^ 31 -> uint_of_int v = Z.to_nat v.
Proof. intros. unfold uint_of_int. rewrite Z.mod_small; [reflexivity|]. change (2 ^ 32) with (2 * 2 ^ 31). lia. Qed.

Section W.
Variable W : nat.
Hypothesis HW : (1 <= W <= 64)%nat.

Lemma encode_any_put P d s L maxbits maxprec data :
  length data = block_size d -> wat W s L ->
  (length L + length (code P maxbits maxprec data) <= cap W s)%nat ->
  (if (block_size d <=? 64)%nat then encode_ints W P s maxbits maxprec data
   else encode_many_ints W P s maxbits maxprec data)
  = (length (code P maxbits maxprec data), put W s (code P maxbits maxprec data)).
Proof.
  intros LD Hw Hc. destruct (Nat.leb_spec (block_size d) 64).
  - apply (encode_ints_put W HW P s L); auto. lia.
  - apply (encode_many_ints_put W HW P s L); auto.
Qed.

Lemma decode_result_code P maxbits maxprec data m pos s :
  data <> [] -> Forall (fun d => 0 <= d < 2 ^ Z.of_nat P) data ->
  readable W m pos (code P maxbits maxprec data) s ->
  decode_result W P m pos maxbits maxprec (length data) =
    (length (code P maxbits maxprec data), dec_data P maxbits maxprec (length data) (code P maxbits maxprec data),
     (pos + length (code P maxbits maxprec data))%nat) /\
  decoded P maxprec maxbits data (dec_data P maxbits maxprec (length data) (code P maxbits maxprec data)).
Proof.
  intros Hne Hr Hrd.
  destruct (decode_result_readable W HW P maxbits maxprec data m pos s Hne Hr Hrd) as (data' & E & D).
  fold (code P maxbits maxprec data) in E. set (B := code P maxbits maxprec data) in *.
  assert (data' = dec_data P maxbits maxprec (length data) B) as ED.
  { unfold decode_result in E. unfold dec_data.
    destruct (readable_rest W _ _ _ _ Hrd) as (rest & Er). fold B in Er. rewrite Er in E.
    destruct (dcode P (kmin_of P maxprec) (length data) 0 maxbits (B ++ rest)) as [[ps b'] i'] eqn:Ec.
    injection E as E1 E2 E3.
    destruct (dcode_local _ _ _ _ _ _ _ _ _ Ec) as [L1 L2].
    destruct L2 as (pre & P1 & P2 & P3); [rewrite app_length; lia|].
    assert (pre = B /\ i' = rest) as [-> ->].
    { apply app_eq_len; [lia|]. congruence. }
    specialize (P3 []). rewrite app_nil_r in P3. rewrite P3. auto. }
  rewrite <- ED. auto.
Qed.

Lemma decode_any_readable P d maxbits maxprec data m pos s :
  length data = block_size d -> (1 <= block_size d)%nat ->
  Forall (fun d => 0 <= d < 2 ^ Z.of_nat P) data ->
  readable W m pos (code P maxbits maxprec data) s ->
  exists s',
  (if (block_size d <=? 64)%nat then decode_ints W P s maxbits maxprec (block_size d)
   else decode_many_ints W P s maxbits maxprec (block_size d)) =
    (length (code P maxbits maxprec data), dec_data P maxbits maxprec (block_size d) (code P maxbits maxprec data), s') /\
  rat W m (pos + length (code P maxbits maxprec data)) s' /\
  decoded P maxprec maxbits data (dec_data P maxbits maxprec (block_size d) (code P maxbits maxprec data)).
Proof.
  intros LD HB Hr Hrd. assert (Hne : data <> []) by (intros ->; cbn in LD; lia).
  destruct (decode_result_code P maxbits maxprec data m pos s Hne Hr Hrd) as [E D].
  rewrite <- LD in *. set (B := code P maxbits maxprec data) in *.
  destruct (Nat.leb_spec (length data) 64).
  - pose proof (decode_ints_spec W HW P m pos s maxbits maxprec (length data) ltac:(lia) (proj1 Hrd)) as R.
    rewrite E in R. specialize (R (proj1 (proj2 Hrd))).
    destruct (decode_ints W P s maxbits maxprec (length data)) as [[c1 d1] s1]. destruct R as (-> & -> & R).
    exists s1. auto.
  - pose proof (decode_many_ints_spec W HW P m pos s maxbits maxprec (length data) (proj1 Hrd)) as R.
    rewrite E in R. specialize (R (proj1 (proj2 Hrd))).
    destruct (decode_many_ints W P s maxbits maxprec (length data)) as [[c1 d1] s1]. destruct R as (-> & -> & R).
    exists s1. auto.
Qed.

Lemma readable_prefix m pos A B s : readable W m pos (A ++ B) s -> readable W m pos A s.
Proof.
  intros (R & L & E). rewrite app_length in L. split; [assumption|]. split; [lia|].
  rewrite app_length in E. apply (f_equal (firstn (length A))) in E.
  rewrite firstn_firstn, Nat.min_l in E by lia. rewrite E. apply firstn_app_len.
Qed.

Lemma readable_next m pos A B s s' : readable W m pos (A ++ B) s -> rat W m (pos + length A) s' ->
  readable W m (pos + length A) B s'.
Proof.
  intros (R & L & E) R'. rewrite app_length in *. split; [assumption|]. split; [lia|].
  rewrite Nat.add_comm, skipn_add.
  apply (f_equal (skipn (length A))) in E. rewrite skipn_app_len in E. rewrite <- E at 2.
  rewrite firstn_plus, skipn_app.
  assert (LF : length (firstn (length A) (skipn pos (membits W m))) = length A).
  { rewrite firstn_length, skipn_length, membits_length by assumption. lia. }
  rewrite LF, Nat.sub_diag, (skipn_all2 (firstn (length A) (skipn pos (membits W m)))) by lia. cbn [skipn app]. reflexivity.
Qed.

Variables (P d : nat) (minbits maxbits maxprec : Z).
Hypothesis HD : (1 <= d <= 4)%nat.
Hypothesis HM : 0 <= maxbits < 2 ^ 31.
Hypothesis HM2 : 0 <= maxprec < 2 ^ 31.
Let n := Z.to_nat minbits.
Let mb := Z.to_nat maxbits.
Let mp := Z.to_nat maxprec.

(** bits of one block whose reordered coefficients are [u] *)
Definition block_bits (u : list Z) : list bool := padded n (code P mb mp u).

Lemma encode_block_put s L b c u : wat W s L -> fwd_xform P d b = Some c -> fwd_order P c (perm_of d) = Some u ->
  length u = block_size d -> (length L + length (block_bits u) <= cap W s)%nat ->
  encode_block W P d s minbits maxbits maxprec b = Some (Z.of_nat (length (block_bits u)), put W s (block_bits u)).
Proof.
  intros Hw Fx Fo Lu Hc. unfold encode_block. rewrite Fx. cbn [bind]. rewrite Fo. cbn [bind].
  rewrite !uint_of_int_small by assumption. fold mb mp.
  unfold block_bits in *. rewrite padded_length in Hc.
  rewrite (encode_any_put P d s L) by (auto; lia).
  destruct (Z.ltb_spec (Z.of_nat (length (code P mb mp u))) minbits).
  - unfold padded. rewrite put_app.
    destruct (put_wrote W HW s L (code P mb mp u) Hw ltac:(lia)) as (_ & C & Hw').
    rewrite (pad_put W HW (put W s (code P mb mp u)) _ _ Hw').
    + f_equal. f_equal; [|].
      * rewrite app_length, repeat_length. unfold n. lia.
      * f_equal. f_equal. unfold n. lia.
    + rewrite app_length, C. unfold n in *. lia.
  - unfold padded. replace (n - length (code P mb mp u))%nat with 0%nat by (unfold n; lia).
    cbn [repeat]. rewrite app_nil_r. reflexivity.
Qed.

Definition recon (u : list Z) : option (list Z) :=
  bind (inv_order P (dec_data P mb mp (block_size d) (code P mb mp u)) (perm_of d) (repeat 0 (block_size d))) (inv_xform P d).

Lemma decode_block_readable m pos s u :
  length u = block_size d -> Forall (fun v => 0 <= v < 2 ^ Z.of_nat P) u ->
  readable W m pos (block_bits u) s ->
  exists s', decode_block W P d s minbits maxbits maxprec = (Z.of_nat (length (block_bits u)), s', recon u) /\
    rat W m (pos + length (block_bits u)) s'.
Proof.
  intros Lu Hr Hrd.
  assert (1 <= block_size d)%nat by (apply Nat.neq_0_lt_0, Nat.pow_nonzero; lia).
  unfold block_bits in *. pose proof (readable_prefix _ _ _ _ _ Hrd) as Hp.
  destruct (decode_any_readable P d mb mp u m pos s Lu ltac:(assumption) Hr Hp) as (s1 & E & R & D).
  unfold decode_block. rewrite !uint_of_int_small by assumption. fold mb mp. rewrite E.
  fold (recon u). destruct Hrd as (_ & Hl & _). rewrite padded_length in *.
  destruct (Z.ltb_spec (Z.of_nat (length (code P mb mp u))) minbits).
  - eexists. split; [f_equal; f_equal; unfold n; lia|].
    replace (pos + Nat.max n (length (code P mb mp u)))%nat with (pos + length (code P mb mp u) + Z.to_nat (minbits - Z.of_nat (length (code P mb mp u))))%nat by (unfold n; lia).
    apply rat_skip; auto. unfold n in *. lia.
  - exists s1. split; [f_equal; f_equal; unfold n; lia|].
    replace (Nat.max n (length (code P mb mp u))) with (length (code P mb mp u)) by (unfold n; lia). assumption.
Qed.
End W.
