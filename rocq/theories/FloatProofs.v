(** Lemmas about the floating-point block coder. *)
From Coq Require Import ZArith List Bool Arith Lia.
From Verif Require Import ListAux Bits Bitstream BitstreamProofs BitstreamProofs2 StreamSpec StreamRuns.
From Verif Require Import EmbedSpec ZfpCodec ZfpCodecProofs ZfpCodecProofs2 EmbedRuns ZfpXform BlockSpec BlockProofs PropertiesZfpEmbed PropertiesZfpBlock.
From Verif Require Import ZfpArray PropertiesZfpArray ZfpFloat.
Import ListNotations.
Local Open Scope Z_scope.

(** ** Rounding *)
Lemma rne_error p i n : 1 <= p <= n -> Z.abs i < 2 ^ n -> 2 * Z.abs (rne p i - i) <= 2 ^ (n - p).
Proof.
  intros Hp Hi. unfold rne. set (a := Z.abs i) in *. cbv zeta. set (e := Z.max 0 (Z.log2 a + 1 - p)).
  assert (He0 : 0 <= e) by lia.
  pose proof (Z.pow_pos_nonneg 2 e ltac:(lia) He0) as Hpe.
  pose proof (Z.div_mod a (2 ^ e) ltac:(lia)) as DM. pose proof (Z.mod_pos_bound a (2 ^ e) Hpe) as MB.
  set (q := a / 2 ^ e) in *. set (r := a mod 2 ^ e) in *.
  assert (He : e <= n - p).
  { unfold e. destruct (Z.eq_dec a 0) as [->|]; [change (Z.log2 0) with 0|].
    - lia.
    - assert (Z.log2 a < n) by (apply Z.log2_lt_pow2; lia). lia. }
  assert (2 ^ e <= 2 ^ (n - p)) by (apply Z.pow_le_mono_r; lia).
  assert (S : forall v, Z.abs (Z.sgn i * v - i) = Z.abs (v - a) \/ i = 0).
  { intros v. unfold a. destruct (Z.lt_trichotomy i 0) as [|[|]]; [|tauto|];
      [rewrite Z.sgn_neg by lia; left; lia|rewrite Z.sgn_pos by lia; left; lia]. }
  destruct (S ((if (2 ^ e <? 2 * r) || ((2 ^ e =? 2 * r) && Z.odd q) then q + 1 else q) * 2 ^ e)) as [->|E0].
  - destruct (Z.ltb_spec (2 ^ e) (2 * r)); cbn [orb]; [nia|].
    destruct (Z.eqb_spec (2 ^ e) (2 * r)); cbn [andb]; [destruct (Z.odd q); nia|nia].
  - subst i. cbn [Z.sgn Z.mul]. rewrite Z.sub_0_r. cbn [Z.abs]. lia.
Qed.

Lemma rne_exact p i : 1 <= p -> Z.abs i < 2 ^ p -> rne p i = i.
Proof.
  intros Hp Hi. pose proof (rne_error p i p ltac:(lia) Hi) as H. rewrite Z.sub_diag in H. change (2 ^ 0) with 1 in H. lia.
Qed.

(** ** Exponents *)
Lemma scalar_consts P : int_width P ->
  (P = 32%nat /\ EBITS P = 8%nat /\ EBIAS P = 127 /\ mant P = 24 /\ U P = 149) \/
  (P = 64%nat /\ EBITS P = 11%nat /\ EBIAS P = 1023 /\ mant P = 53 /\ U P = 1074).
Proof. intros [-> | ->]; [left|right]; vm_compute; auto. Qed.

Definition block_max (b : list Z) : Z := fold_left (fun mx x => if mx <? Z.abs x then Z.abs x else mx) b 0.

Lemma block_max_spec b : Forall (fun x => Z.abs x <= block_max b) b /\ 0 <= block_max b /\
  (block_max b = 0 \/ exists x, In x b /\ block_max b = Z.abs x).
Proof.
  unfold block_max. assert (G : forall l a, 0 <= a ->
    a <= fold_left (fun mx x => if mx <? Z.abs x then Z.abs x else mx) l a /\
    Forall (fun x => Z.abs x <= fold_left (fun mx x => if mx <? Z.abs x then Z.abs x else mx) l a) l /\
    (fold_left (fun mx x => if mx <? Z.abs x then Z.abs x else mx) l a = a \/
     exists x, In x l /\ fold_left (fun mx x => if mx <? Z.abs x then Z.abs x else mx) l a = Z.abs x)).
  { induction l as [|x l IH]; intros a Ha; cbn [fold_left].
    - split; [lia|]. split; [constructor|left; reflexivity].
    - destruct (Z.ltb_spec a (Z.abs x)) as [H|H].
      + destruct (IH (Z.abs x) ltac:(lia)) as (I1 & I2 & I3). split; [lia|]. split; [constructor; auto|].
        destruct I3 as [I3|(y & Y1 & Y2)]; right; [exists x|exists y]; cbn; auto.
      + destruct (IH a Ha) as (I1 & I2 & I3). split; [lia|]. split; [constructor; [lia|auto]|].
        destruct I3 as [I3|(y & Y1 & Y2)]; [left; auto|right; exists y; cbn; auto]. }
  destruct (G b 0 ltac:(lia)) as (G1 & G2 & G3). auto.
Qed.

(** what the decoder will know of the block *)
Definition in_range P (b : list Z) : Prop := Forall (fun k => Z.abs k < 2 ^ (EBIAS P + 1 + U P)) b.

Lemma exponent_block_spec P b : int_width P -> in_range P b ->
  let emax := exponent_block P b in
  - EBIAS P <= emax <= EBIAS P + 1 /\
  Forall (fun k => Z.abs k < 2 ^ (emax + U P)) b /\
  (emax = - EBIAS P <-> Forall (fun k => k = 0) b) /\
  (1 - EBIAS P < emax -> exists k, In k b /\ 2 ^ (emax - 1 + U P) <= Z.abs k).
Proof.
  intros HP HR emax. destruct (block_max_spec b) as (M1 & M2 & M3).
  unfold emax, exponent_block. fold (block_max b). set (M := block_max b) in *.
  assert (HM : M < 2 ^ (EBIAS P + 1 + U P)).
  { destruct M3 as [->|(x & X1 & ->)]; [apply Z.pow_pos_nonneg; [lia|]; destruct (scalar_consts P HP) as [H|H]; destruct H as (_ & _ & -> & _ & ->); lia|].
    unfold in_range in HR. rewrite Forall_forall in HR. apply HR. exact X1. }
  unfold exponent. destruct (Z.ltb_spec 0 M) as [HM0|HM0].
  - assert (Z.log2 M < EBIAS P + 1 + U P) by (apply Z.log2_lt_pow2; lia).
    pose proof (Z.log2_spec M HM0) as LS. pose proof (Z.log2_nonneg M) as LN.
    assert (EP : 0 < EBIAS P /\ 1 <= U P - EBIAS P) by (destruct (scalar_consts P HP) as [H'|H']; destruct H' as (_ & _ & -> & _ & ->); lia).
    split; [lia|]. split; [|split].
    + apply Forall_impl with (P := fun k => Z.abs k <= M); [|exact M1]. intros k Hk. eapply Z.le_lt_trans; [exact Hk|].
      eapply Z.lt_le_trans; [apply LS|]. apply Z.pow_le_mono_r; lia.
    + split; intros E; [lia|]. exfalso. destruct M3 as [M3|(x & X1 & X2)]; [lia|].
      rewrite Forall_forall in E. rewrite (E x X1) in X2. cbn in X2. lia.
    + intros Hc. destruct M3 as [M3|(x & X1 & X2)]; [lia|]. exists x. split; [exact X1|]. rewrite <- X2.
      replace (Z.max (Z.log2 M + 1 - U P) (1 - EBIAS P) - 1 + U P) with (Z.log2 M) by lia. apply LS.
  - assert (M = 0) as E by lia.
    assert (EP : 0 < EBIAS P /\ 1 <= U P - EBIAS P) by (destruct (scalar_consts P HP) as [H'|H']; destruct H' as (_ & _ & -> & _ & ->); lia).
    split; [lia|]. assert (A0 : Forall (fun k => k = 0) b) by (eapply Forall_impl; [|exact M1]; cbn; lia).
    split; [|split; [tauto|lia]].
    eapply Forall_impl; [|exact A0]. cbn. intros k ->. apply Z.pow_pos_nonneg; lia.
Qed.

(** ** Quantisation *)
Lemma fwd_cast_spec P b : int_width P -> in_range P b ->
  let emax := exponent_block P b in
  let a := emax + U P - (Z.of_nat P - 2) in
  Z.of_nat P - 2 - EBIAS P <= emax ->
  0 < a /\ exists ib, fwd_cast P emax b = Some ib /\ length ib = length b /\ bounded (guard_max P) ib /\
    Forall2 (fun k i => Z.abs (k - i * 2 ^ a) < 2 ^ a /\ Z.abs i * 2 ^ a <= Z.abs k) b ib.
Proof.
  intros HP HR emax a He. destruct (exponent_block_spec P b HP HR) as (E1 & E2 & _). fold emax in E1, E2.
  assert (Ha : 0 < a) by (unfold a; destruct (scalar_consts P HP) as [H|H]; destruct H as (-> & _ & H1 & _ & H2); rewrite H1, H2 in *; lia).
  split; [exact Ha|]. unfold fwd_cast. fold emax. destruct (Z.ltb_spec (EBIAS P) (Z.of_nat P - 2 - emax)); [lia|].
  replace (Z.of_nat P - 2 - emax - U P) with (- a) by (unfold a; lia).
  rewrite Z.max_l, Z.max_r by lia. rewrite Z.opp_involutive. change (2 ^ 0) with 1.
  eexists. split; [reflexivity|]. split; [apply map_length|].
  pose proof (Z.pow_pos_nonneg 2 a ltac:(lia) ltac:(lia)) as Hp.
  assert (Q : forall k, Z.abs (k - Z.quot (k * 1) (2 ^ a) * 2 ^ a) < 2 ^ a /\ Z.abs (Z.quot (k * 1) (2 ^ a)) * 2 ^ a <= Z.abs k).
  { intros k. rewrite Z.mul_1_r. pose proof (Z.quot_rem' k (2 ^ a)) as QR.
    destruct (Z.le_gt_cases 0 k).
    - pose proof (Z.rem_bound_pos k (2 ^ a) ltac:(lia) ltac:(lia)). pose proof (Z.quot_pos k (2 ^ a) ltac:(lia) ltac:(lia)). nia.
    - pose proof (Z.rem_bound_pos (- k) (2 ^ a) ltac:(lia) ltac:(lia)). pose proof (Z.rem_opp_l k (2 ^ a) ltac:(lia)).
      pose proof (Z.quot_opp_l k (2 ^ a) ltac:(lia)). pose proof (Z.quot_pos (- k) (2 ^ a) ltac:(lia) ltac:(lia)). nia. }
  split.
  - apply Forall_forall. intros i I. apply in_map_iff in I as (k & <- & I). destruct (Q k) as [_ Q2].
    rewrite Forall_forall in E2. specialize (E2 k I). cbv beta in E2.
    replace (emax + U P) with (Z.of_nat P - 2 + a) in E2 by (unfold a; lia).
    rewrite Z.pow_add_r in E2 by (destruct HP; lia). unfold guard_max.
    set (q := Z.quot (k * 1) (2 ^ a)) in *. nia.
  - clearbody a. clear - Q. induction b as [|k b IH]; cbn [map]; constructor; auto.
Qed.

(** ** The code of a float block *)
Lemma readable_op W (HW : (1 <= W <= 64)%nat) o m pos B s : readable W m pos (op_bits o ++ B) s -> op_ok o ->
  exists s', do_read W s o = (op_value o, s') /\ readable W m (pos + op_len o) B s'.
Proof.
  intros R Ho. pose proof (readable_prefix W HW _ _ _ _ _ R) as (R1 & R2 & R3). rewrite op_bits_length in R2, R3.
  pose proof (do_read_spec W HW m pos s o R1 Ho R2 R3) as D. destruct (do_read W s o) as [v s']. destruct D as [-> D].
  exists s'. split; [reflexivity|]. rewrite <- op_bits_length. apply (readable_next W HW m pos _ B s s' R). rewrite op_bits_length. exact D.
Qed.

Lemma split_low e n : map (fun i => Z.testbit (2 * e + 1) (Z.of_nat i)) (seq 0 (S n)) =
  op_bits (PutBit true) ++ op_bits (PutBits e n).
Proof.
  cbn [seq map op_bits app]. f_equal; [apply Z.testbit_odd_0|]. rewrite <- seq_shift, map_map. apply map_ext. intros i.
  rewrite Nat2Z.inj_succ. apply Z.testbit_odd_succ. lia.
Qed.

Section Code.
Variables (W P d : nat) (minbits maxbits maxprec minexp : Z).
Hypothesis HW0 : word_size W.
Hypothesis HP : int_width P.
Hypothesis HD : dims d.
Hypothesis HM : Z.of_nat (EBITS P) + 1 <= maxbits < 2 ^ 31.
Hypothesis Hm : 0 <= minbits < 2 ^ 31.
Hypothesis HM2 : 0 <= maxprec < 2 ^ 31.
Let HW := word_size_range W HW0.
Let ebits := Z.of_nat (EBITS P) + 1.

(** a finite block whose scale factor is finite, unless it is coded as zero *)
Definition float_ok (b : list Z) : Prop :=
  length b = (4 ^ d)%nat /\ in_range P b /\
  (precision (exponent_block P b) maxprec minexp d = 0 \/ Forall (fun k => k = 0) b \/
   Z.of_nat P - 2 - EBIAS P <= exponent_block P b).

Definition coeffs_of (b : list Z) : list Z :=
  match fwd_xform P d b with Some c => map (fun p => int2uint P (nth p c 0)) (perm_of d) | None => [] end.
Definition prec_of (b : list Z) : Z := precision (exponent_block P b) maxprec minexp d.
Definition biased (b : list Z) : Z := if prec_of b =? 0 then 0 else exponent_block P b + EBIAS P.
Definition cast (b : list Z) : list Z := match fwd_cast P (exponent_block P b) b with Some ib => ib | None => [] end.
Definition float_code (b : list Z) : list bool :=
  if biased b =? 0 then padded (Z.to_nat minbits) [false]
  else op_bits (PutBits (2 * biased b + 1) (Z.to_nat ebits)) ++
       block_bits P (minbits - ebits) (maxbits - ebits) (prec_of b) (coeffs_of (cast b)).
Definition float_recon (b : list Z) : option (list Z) :=
  if biased b =? 0 then Some (repeat 0 (4 ^ d)%nat)
  else bind (recon P d (maxbits - ebits) (prec_of b) (coeffs_of (cast b))) (inv_cast P (exponent_block P b)).

Lemma ebits_small : 9 <= ebits <= 12.
Proof. unfold ebits. destruct (scalar_consts P HP) as [H|H]; destruct H as (_ & -> & _); lia. Qed.

Lemma precision_range e : 0 <= precision e maxprec minexp d < 2 ^ 31.
Proof. unfold precision. lia. Qed.

Lemma float_nonzero b : float_ok b -> biased b <> 0 ->
  prec_of b <> 0 /\ biased b = exponent_block P b + EBIAS P /\ 1 <= biased b < 2 ^ Z.of_nat (EBITS P) /\
  Z.of_nat P - 2 - EBIAS P <= exponent_block P b.
Proof.
  intros (L & R & O) B. unfold biased in *. fold (prec_of b) in O.
  destruct (Z.eqb_spec (prec_of b) 0) as [|N]; [tauto|].
  destruct (exponent_block_spec P b HP R) as (E1 & _ & E3 & _).
  split; [exact N|]. split; [reflexivity|]. split.
  - destruct (scalar_consts P HP) as [H|H]; destruct H as (_ & H1 & H2 & _); rewrite H1, H2 in *;
      change (2 ^ Z.of_nat 8) with 256; change (2 ^ Z.of_nat 11) with 2048; lia.
  - destruct O as [O|[O|O]]; [tauto| |exact O]. apply E3 in O. lia.
Qed.

Lemma cast_spec b : float_ok b -> biased b <> 0 ->
  fwd_cast P (exponent_block P b) b = Some (cast b) /\ length (cast b) = (4 ^ d)%nat /\ bounded (guard_max P) (cast b).
Proof.
  intros Hb B. destruct (float_nonzero b Hb B) as (_ & _ & _ & E). destruct Hb as (L & R & _).
  destruct (fwd_cast_spec P b HP R E) as (_ & ib & E1 & E2 & E3 & _). unfold cast. rewrite E1. conjs; auto. lia.
Qed.

Lemma int32_small v : - 2 ^ 31 <= v < 2 ^ 31 -> int32 v = v.
Proof. apply int32_id. Qed.

Lemma float_code_length b : float_ok b ->
  minbits <= Z.of_nat (length (float_code b)) <= Z.max minbits maxbits /\
  Z.of_nat (length (float_code b)) <= Z.max minbits (ebits + Z.of_nat (full_bits (Nat.min P (Z.to_nat maxprec)) (4 ^ d))).
Proof.
  intros Hb. pose proof ebits_small. unfold float_code. destruct (Z.eqb_spec (biased b) 0) as [B|B].
  - rewrite padded_length. cbn [length]. lia.
  - rewrite app_length. cbn [op_bits]. rewrite map_length, seq_length.
    destruct (cast_spec b Hb B) as (_ & C2 & C3).
    destruct (coeffs_spec P d minbits maxbits maxprec HP HD (cast b) C2 C3) as (c & _ & _ & X3 & _). fold (coeffs_of (cast b)) in X3.
    destruct (code_length P d (maxbits - ebits) (prec_of b) (coeffs_of (cast b)) X3) as [L1 L2].
    unfold block_bits. rewrite padded_length.
    assert (FM : (full_bits (Nat.min P (Z.to_nat (prec_of b))) (4 ^ d) <= full_bits (Nat.min P (Z.to_nat maxprec)) (4 ^ d))%nat).
    { unfold full_bits. assert (Nat.min P (Z.to_nat (prec_of b)) <= Nat.min P (Z.to_nat maxprec))%nat by (unfold prec_of, precision; lia).
      nia. }
    lia.
Qed.

Lemma encode_float_put s L b : float_ok b -> wat W s L -> (length L + length (float_code b) <= cap W s)%nat ->
  encode_float W P d s minbits maxbits maxprec minexp b = Some (Z.of_nat (length (float_code b)), put W s (float_code b)).
Proof.
  intros Hb Hw Hc. pose proof ebits_small as HE. unfold encode_float. cbv zeta. fold (prec_of b). fold (biased b).
  unfold float_code in *. destruct (Z.eqb_spec (biased b) 0) as [B|B].
  - rewrite write_bit_put. rewrite padded_length in Hc. unfold padded. cbn [length] in *. rewrite put_app.
    destruct (put_wrote W HW s L [false] Hw ltac:(cbn [length]; lia)) as (_ & C & Hw').
    destruct (Z.ltb_spec 1 minbits).
    + rewrite (pad_put W HW (put W s [false]) _ _ Hw') by (rewrite app_length, C; cbn [length]; lia).
      f_equal. f_equal; [|f_equal; f_equal; lia]. rewrite app_length, repeat_length. cbn [length]. lia.
    + replace (Z.to_nat minbits - 1)%nat with 0%nat by lia. reflexivity.
  - destruct (float_nonzero b Hb B) as (N1 & N2 & N3 & N4). destruct (cast_spec b Hb B) as (C1 & C2 & C3).
    destruct (coeffs_spec P d minbits maxbits maxprec HP HD (cast b) C2 C3) as (c & X1 & X2 & X3 & X4 & _).
    fold (coeffs_of (cast b)) in X2, X3, X4. fold ebits.
    rewrite app_length in Hc.
    assert (LO : length (op_bits (PutBits (2 * biased b + 1) (Z.to_nat ebits))) = Z.to_nat ebits) by (cbn [op_bits]; rewrite map_length, seq_length; reflexivity).
    assert (HV : 0 <= 2 * biased b + 1 < 2 ^ 64).
    { assert (2 ^ Z.of_nat (EBITS P) <= 2 ^ 11) by (apply Z.pow_le_mono_r; [lia|]; destruct (scalar_consts P HP) as [H|H]; destruct H as (_ & -> & _); lia).
      change (2 ^ 64) with (2 ^ 11 * 2 ^ 53). nia. }
    rewrite (write_bits_put W HW s L _ _ Hw HV) by lia.
    rewrite C1. cbn [bind].
    destruct (put_wrote W HW s L (op_bits (PutBits (2 * biased b + 1) (Z.to_nat ebits))) Hw ltac:(lia)) as (_ & CC & Hw').
    rewrite !int32_small by lia.
    rewrite (encode_block_put W HW P d (minbits - ebits) (maxbits - ebits) (prec_of b) HD ltac:(lia) (precision_range _) _ _ (cast b) c (coeffs_of (cast b)) Hw' X1 X2 X3)
      by (rewrite app_length, CC; lia).
    cbn [bind fst snd]. rewrite put_app, app_length. f_equal. f_equal. lia.
Qed.

Lemma decode_float_readable m pos s b : float_ok b -> readable W m pos (float_code b) s ->
  exists s', decode_float W P d s minbits maxbits maxprec minexp = (Z.of_nat (length (float_code b)), s', float_recon b) /\
    rat W m (pos + length (float_code b)) s'.
Proof.
  intros Hb R. pose proof ebits_small as HE. unfold decode_float. cbv zeta. unfold float_recon, float_code in *.
  destruct (Z.eqb_spec (biased b) 0) as [B|B].
  - pose proof R as (_ & RL & _). rewrite padded_length in *. unfold padded in R. cbn [length] in *.
    destruct (readable_op W HW (PutBit false) m pos _ s R I) as [s1 [E1 R1]]. cbn [do_read op_value] in E1. cbn [op_len] in *.
    destruct (stream_read_bit W s) as [bit s2]. injection E1 as E1 ->. destruct bit; [discriminate E1|].
    destruct (Z.ltb_spec 1 minbits).
    + eexists. split; [f_equal; f_equal; lia|].
      replace (pos + Nat.max (Z.to_nat minbits) 1)%nat with (pos + 1 + Z.to_nat (minbits - 1))%nat by lia.
      apply rat_skip; [exact HW|apply R1|]. lia.
    + eexists. split; [f_equal; f_equal; lia|]. replace (Nat.max (Z.to_nat minbits) 1) with 1%nat by lia. apply R1.
  - destruct (float_nonzero b Hb B) as (N1 & N2 & N3 & N4). destruct (cast_spec b Hb B) as (C1 & C2 & C3).
    destruct (coeffs_spec P d minbits maxbits maxprec HP HD (cast b) C2 C3) as (c & X1 & X2 & X3 & X4 & _).
    fold (coeffs_of (cast b)) in X2, X3, X4. fold ebits.
    assert (ES : Z.to_nat ebits = S (EBITS P)) by (unfold ebits; lia).
    set (Bk := block_bits P (minbits - ebits) (maxbits - ebits) (prec_of b) (coeffs_of (cast b))) in *.
    rewrite ES in R |- *. rewrite app_length. cbn [op_bits] in *. rewrite map_length, seq_length.
    rewrite (split_low (biased b) (EBITS P)) in R. rewrite <- app_assoc in R.
    destruct (readable_op W HW (PutBit true) m pos _ s R I) as [s1 [E1 R1]]. cbn [do_read op_value] in E1. cbn [op_len] in *.
    destruct (stream_read_bit W s) as [bit s2]. injection E1 as E1 ->. destruct bit; [|discriminate E1].
    assert (HV : 0 <= biased b < 2 ^ 64 /\ (EBITS P <= 64)%nat).
    { assert (EB : (EBITS P <= 64)%nat) by (destruct (scalar_consts P HP) as [H|H]; destruct H as (_ & -> & _); lia).
      assert (2 ^ Z.of_nat (EBITS P) <= 2 ^ 64) by (apply Z.pow_le_mono_r; lia). split; [lia|exact EB]. }
    destruct (readable_op W HW (PutBits (biased b) (EBITS P)) m (pos + 1) _ s1 R1 HV) as [s3 [E3 R3]].
    cbn [do_read op_value op_len] in E3, R3. replace (Z.to_nat (ebits - 1)) with (EBITS P) by lia. rewrite E3.
    rewrite Z.mod_small by lia. replace (biased b - EBIAS P) with (exponent_block P b) by lia. fold (prec_of b).
    rewrite !int32_small by lia.
    destruct (decode_block_readable W HW P d (minbits - ebits) (maxbits - ebits) (prec_of b) HD ltac:(lia) (precision_range _) m _ s3 _ X3 X4 R3)
      as (s4 & E4 & R4).
    rewrite E4. exists s4. fold Bk in R4 |- *. split.
    + f_equal. f_equal. unfold ebits. lia.
    + replace (pos + (S (EBITS P) + length Bk))%nat with (pos + 1 + EBITS P + length Bk)%nat by lia. exact R4.
Qed.
End Code.
