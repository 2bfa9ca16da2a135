(** Error bounds of floating-point blocks. *)
From Coq Require Import ZArith List Bool Arith Lia.
From Verif Require Import ListAux Bits Bitstream BitstreamProofs BitstreamProofs2 StreamSpec StreamRuns.
From Verif Require Import EmbedSpec ZfpCodec ZfpCodecProofs ZfpCodecProofs2 EmbedRuns ZfpXform BlockSpec BlockProofs PropertiesZfpEmbed PropertiesZfpBlock.
From Verif Require Import ZfpArray PropertiesZfpArray ZfpFloat FloatProofs.
Import ListNotations.
Local Open Scope Z_scope.

Lemma Forall2_length_eq {A B} (R : A -> B -> Prop) l l' : Forall2 R l l' -> length l = length l'.
Proof. induction 1; cbn [length]; congruence. Qed.

Lemma chain_error k i r A G T : 0 < A -> Z.abs (k - i * A) < A -> Z.abs (i - r) <= G -> G + 1 <= T -> Z.abs (k - r * A) < T * A.
Proof.
  intros HA H1 H2 H3.
  assert (Z.abs (i - r) * A <= G * A) by (apply Z.mul_le_mono_nonneg_r; lia).
  assert ((G + 1) * A <= T * A) by (apply Z.mul_le_mono_nonneg_r; lia).
  assert (Z.abs (k - r * A) <= Z.abs (k - i * A) + Z.abs (i - r) * A); [|lia].
  replace (k - r * A) with ((k - i * A) + (i - r) * A) by ring.
  etransitivity; [apply Z.abs_triangle|]. rewrite Z.abs_mul, (Z.abs_eq A) by lia. lia.
Qed.

Lemma recon_precise P d maxbits prec b B :
  int_width P -> dims d -> length b = (4 ^ d)%nat ->
  0 <= maxbits < 2 ^ 31 -> 0 <= prec < 2 ^ 31 ->
  let E := 2 ^ Z.of_nat (P - Z.to_nat prec) - 1 in
  2 <= B -> bounded B b -> B + 2 * growth (d - 1) E + 1 <= guard_max P ->
  (full_bits (Nat.min P (Z.to_nat prec)) (4 ^ d) <= Z.to_nat maxbits)%nat ->
  exists b', recon P d maxbits prec (coeffs_of P d b) = Some b' /\ close (growth d E) b b'.
Proof.
  intros HP HD Lb HM HM2 E HB Fb HG Hfull.
  assert (HW0 : word_size 64) by (right; right; right; reflexivity). pose proof (word_size_range 64 HW0) as HW.
  set (words := Z.to_nat maxbits).
  assert (HE : 0 <= E) by (unfold E; assert (0 < 2 ^ Z.of_nat (P - Z.to_nat prec)) by (apply Z.pow_pos_nonneg; lia); lia).
  pose proof (XformProofs2.growth_ge (d - 1) E HE) as GG.
  assert (Fb2 : bounded (guard_max P) b) by (eapply Forall_impl; [|exact Fb]; cbn; lia).
  destruct (C14_precision 64 P d (repeat 0 words) 0 0 maxbits prec b B) as (n & s & b' & E1 & E2 & E3); auto.
  { apply Forall_forall. intros x X. apply repeat_spec in X. subst x. split; [lia|]. apply Z.pow_pos_nonneg; lia. }
  { rewrite repeat_length. unfold words. lia. }
  assert (S0 : stream_wseek 64 (stream_open (repeat 0 words)) 0 = stream_open (repeat 0 words)).
  { unfold stream_wseek. rewrite Nat.mod_0_l, Nat.div_0_l by lia. destruct words; reflexivity. }
  assert (RW : forall s, stream_rewind s = stream_rseek 64 s 0).
  { intros t. unfold stream_rseek. rewrite Nat.mod_0_l, Nat.div_0_l by lia. destruct t; reflexivity. }
  exists b'. split; [|exact E3].
  pose proof (alone_recon 64 P d 0 maxbits prec HW0 HP HD HM HM2 words b Lb Fb2 ltac:(unfold words; lia)) as A.
  unfold coeffs_of. rewrite <- A. unfold alone. rewrite S0 in E1. rewrite E1, RW. exact E2.
Qed.

Lemma growth1_step E : 4 * (growth1 E + 1) <= 15 * (E + 1) + 2.
Proof. unfold growth1. pose proof (Z.mul_div_le (15 * E + 13) 4 ltac:(lia)). lia. Qed.

(** with E + 1 = T / 4^d the error stays below T by more than [R] *)
Lemma growth_below d E R T : dims d -> T = 4 ^ Z.of_nat d * (E + 1) -> 0 <= E ->
  20 * R <= T -> 10 <= R -> growth d E + 1 + R <= T.
Proof.
  intros HD HT HE HR R10.
  pose proof (growth1_step E). pose proof (growth1_step (growth1 E)).
  pose proof (growth1_step (growth1 (growth1 E))). pose proof (growth1_step (growth1 (growth1 (growth1 E)))).
  destruct HD as [D1 D2]. destruct d as [|[|[|[|[|]]]]]; try lia; cbn [growth];
    change (4 ^ Z.of_nat 1) with 4 in *; change (4 ^ Z.of_nat 2) with 16 in *; change (4 ^ Z.of_nat 3) with 64 in *;
    change (4 ^ Z.of_nat 4) with 256 in *; lia.
Qed.
Lemma growth_pred d E T : dims d -> T = 4 ^ Z.of_nat d * (E + 1) -> 0 <= E -> 2 ^ 11 <= T ->
  2 * growth (d - 1) E + 1 < T.
Proof.
  intros HD HT HE HR.
  pose proof (growth1_step E). pose proof (growth1_step (growth1 E)). pose proof (growth1_step (growth1 (growth1 E))).
  change (2 ^ 11) with 2048 in *.
  destruct HD as [D1 D2]. destruct d as [|[|[|[|[|]]]]]; try lia; cbn [growth Nat.sub];
    change (4 ^ Z.of_nat 1) with 4 in *; change (4 ^ Z.of_nat 2) with 16 in *; change (4 ^ Z.of_nat 3) with 64 in *;
    change (4 ^ Z.of_nat 4) with 256 in *; lia.
Qed.

(** rounding of the integers of the decoder to the scalar type, in units of the last place *)
Definition rounding P : Z := if (P =? 32)%nat then 64 else 512.
(** binary digits by which the largest value of a block may exceed the tolerance *)
Definition digits_max P : Z := if (P =? 32)%nat then 19 else 48.

Lemma float_accuracy P d maxbits maxprec minexp b :
  int_width P -> dims d -> in_range P b -> length b = (4 ^ d)%nat ->
  Z.of_nat (EBITS P) + 1 + Z.of_nat (full_bits P (4 ^ d)) <= maxbits < 2 ^ 31 -> Z.of_nat P <= maxprec < 2 ^ 31 ->
  - U P <= minexp ->
  let emax := exponent_block P b in
  (emax - minexp + 2 * (Z.of_nat d + 1) <= 0 \/ Forall (fun k => k = 0) b \/
   Z.of_nat P - 2 - EBIAS P <= emax /\ emax - minexp <= digits_max P /\
   Forall (fun k => Z.abs k + 2 ^ (minexp + U P) <= 2 ^ (emax + U P)) b) ->
  exists b', float_recon P d maxbits maxprec minexp b = Some b' /\ length b' = length b /\
    Forall2 (fun k k' => Z.abs (k - k') < 2 ^ (minexp + U P)) b b'.
Proof.
  intros HP HD HR Lb HM HM2 Hme emax Hcase.
  destruct (exponent_block_spec P b HP HR) as (E1 & E2 & E3 & _). fold emax in E1, E2, E3.
  pose proof (Z.pow_pos_nonneg 2 (minexp + U P) ltac:(lia) ltac:(lia)) as HT0.
  assert (HDn : 1 <= Z.of_nat d <= 4) by (destruct HD; lia).
  unfold float_recon, biased, prec_of. fold emax.
  assert (Zero : (if precision emax maxprec minexp d =? 0 then 0 else emax + EBIAS P) = 0 ->
     Forall (fun k => Z.abs k < 2 ^ (minexp + U P)) b ->
     exists b', (if (if precision emax maxprec minexp d =? 0 then 0 else emax + EBIAS P) =? 0 then Some (repeat 0 (4 ^ d)%nat)
       else bind (recon P d (maxbits - (Z.of_nat (EBITS P) + 1)) (precision emax maxprec minexp d) (coeffs_of P d (cast P b))) (inv_cast P emax)) = Some b' /\
     length b' = length b /\ Forall2 (fun k k' => Z.abs (k - k') < 2 ^ (minexp + U P)) b b').
  { intros -> F. rewrite Z.eqb_refl. eexists. split; [reflexivity|]. rewrite repeat_length. split; [lia|].
    rewrite <- Lb. clear - F. induction F as [|k b H F IH]; cbn [length repeat]; constructor; [rewrite Z.sub_0_r; exact H|exact IH]. }
  destruct Hcase as [C|[C|(C1 & C2 & C3)]].
  - apply Zero.
    + unfold precision. rewrite Z.max_l by lia. rewrite Z.min_r by lia. reflexivity.
    + eapply Forall_impl; [|exact E2]. cbn. intros k Hk. eapply Z.lt_le_trans; [exact Hk|]. apply Z.pow_le_mono_r; lia.
  - apply Zero.
    + apply E3 in C. destruct (precision emax maxprec minexp d =? 0); [reflexivity|]. rewrite C. ring.
    + eapply Forall_impl; [|exact C]. cbn. intros k ->. exact HT0.
  - clear Zero.
    set (a := emax + U P - (Z.of_nat P - 2)).
    destruct (fwd_cast_spec P b HP HR C1) as (Ha & ib & F1 & F2 & F3 & F4). fold emax in F1. fold emax in Ha, F4. fold a in Ha, F4.
    pose proof (Z.pow_pos_nonneg 2 a ltac:(lia) ltac:(lia)) as Hpa.
    set (t := Z.of_nat P - 2 - (emax - minexp)). set (T := 2 ^ t).
    assert (HTt : digits_max P + t = Z.of_nat P - 2 + (digits_max P - (emax - minexp))) by (unfold t; lia).
    assert (Ht : (if (P =? 32)%nat then 11 else 14) <= t /\ t <= Z.of_nat P - 3).
    { split; [unfold t; unfold digits_max in C2; destruct HP as [-> | ->]; cbn [Nat.eqb] in *; cbn [Z.of_nat Pos.of_succ_nat Pos.succ] in *; lia|].
      unfold t. assert (emax <= minexp -> False); [|lia]. intros HH.
      assert (emax = - EBIAS P) as HX.
      { apply E3. eapply Forall_impl; [|exact C3]. cbn. intros k Hk.
        assert (2 ^ (emax + U P) <= 2 ^ (minexp + U P)) by (apply Z.pow_le_mono_r; lia). lia. }
      destruct (scalar_consts P HP) as [H|H]; destruct H as (HP' & _ & H1 & _); rewrite H1 in *; rewrite HP' in C1; lia. }
    assert (ET : 2 ^ (minexp + U P) = T * 2 ^ a).
    { unfold T. rewrite <- Z.pow_add_r by (destruct HP as [-> | ->]; cbn [Nat.eqb] in Ht; lia). f_equal. unfold t, a. lia. }
    assert (HTb : T <= 2 ^ (Z.of_nat P - 3)) by (apply Z.pow_le_mono_r; lia).
    assert (HPp : 2 ^ (Z.of_nat P - 2) = 2 * 2 ^ (Z.of_nat P - 3) /\ 2 <= 2 ^ (Z.of_nat P - 3) /\ 2 ^ (Z.of_nat P - 1) = 4 * 2 ^ (Z.of_nat P - 3)).
    { destruct HP as [-> | ->]; vm_compute; repeat split; discriminate. }
    assert (HTl : 20 * (rounding P + 2) <= T).
    { unfold T, rounding. destruct HP as [-> | ->]; cbn [Nat.eqb] in *; [transitivity (2 ^ 11)|transitivity (2 ^ 14)]; try (vm_compute; discriminate); apply Z.pow_le_mono_r; lia. }
    assert (HTl2 : 2 ^ 11 <= T).
    { unfold T. apply Z.pow_le_mono_r; [lia|]. destruct HP as [-> | ->]; cbn [Nat.eqb] in *; lia. }
    set (prec := precision emax maxprec minexp d).
    assert (EP : prec = emax - minexp + 2 * (Z.of_nat d + 1) /\ 0 < prec <= Z.of_nat P).
    { assert (0 <= emax - minexp) by (unfold t in Ht; lia).
      assert (emax - minexp + 2 * (Z.of_nat d + 1) <= Z.of_nat P).
      { unfold digits_max in C2. destruct HP as [-> | ->]; cbn [Nat.eqb] in C2; lia. }
      unfold prec, precision. lia. }
    destruct EP as [EP1 EP2]. destruct (Z.eqb_spec prec 0); [lia|].
    assert (EB : emax + EBIAS P <> 0).
    { destruct (scalar_consts P HP) as [H|H]; destruct H as (HP' & _ & H1 & _); rewrite H1 in *; rewrite HP' in C1; lia. }
    destruct (Z.eqb_spec (emax + EBIAS P) 0); [lia|].
    unfold cast. fold emax. rewrite F1.
    set (E := 2 ^ Z.of_nat (P - Z.to_nat prec) - 1).
    assert (HE : T = 4 ^ Z.of_nat d * (E + 1)).
    { unfold E, T. replace (2 ^ Z.of_nat (P - Z.to_nat prec) - 1 + 1) with (2 ^ Z.of_nat (P - Z.to_nat prec)) by lia.
      change 4 with (2 ^ 2). rewrite <- Z.pow_mul_r by lia. rewrite <- Z.pow_add_r by lia. f_equal. unfold t. lia. }
    assert (HE0 : 0 <= E) by (unfold E; pose proof (Z.pow_pos_nonneg 2 (Z.of_nat (P - Z.to_nat prec)) ltac:(lia) ltac:(lia)); lia).
    pose proof (growth_below d E (rounding P + 2) T HD HE HE0 HTl ltac:(unfold rounding; destruct (P =? 32)%nat; lia)) as GB.
    pose proof (growth_pred d E T HD HE HE0 HTl2) as GP.
    assert (Hmag : bounded (2 ^ (Z.of_nat P - 2) - T) ib).
    { clear - C3 F4 ET Hpa Ha HP. unfold bounded.
      assert (EQ : 2 ^ (emax + U P) = 2 ^ (Z.of_nat P - 2) * 2 ^ a).
      { rewrite <- Z.pow_add_r by (destruct HP; lia). f_equal. unfold a. lia. }
      rewrite EQ, ET in C3. clear EQ ET. clearbody a T. clear - C3 F4 Hpa Ha. revert C3. induction F4 as [|k i b2 ib2 [H1 H2] F4 IH]; intros C3; constructor.
      - apply Forall_inv in C3. cbv beta in C3. nia.
      - apply IH. exact (Forall_inv_tail C3). }
    destruct (recon_precise P d (maxbits - (Z.of_nat (EBITS P) + 1)) prec ib (2 ^ (Z.of_nat P - 2) - T)) as (b' & B1 & B2);
      try assumption; try lia.
    { fold E. unfold guard_max. lia. }
    { assert (full_bits (Nat.min P (Z.to_nat prec)) (4 ^ d) <= full_bits P (4 ^ d))%nat by (clear; unfold full_bits; nia). clear - H HM. lia. }
    rewrite B1. cbn [bind]. unfold inv_cast.
    replace (emax - (Z.of_nat P - 2) + U P) with a by (unfold a; lia). destruct (Z.ltb_spec a 0); [lia|]. cbv zeta.
    fold E in B2.
    assert (HL : forall k i i', Z.abs (k - i * 2 ^ a) < 2 ^ a -> Z.abs (i - i') <= growth d E -> Z.abs i <= 2 ^ (Z.of_nat P - 2) - T ->
       Z.abs (k - rne (mant P) i' * 2 ^ a) < T * 2 ^ a).
    { intros k i i' K1 K2 K3. assert (0 < rounding P) by (unfold rounding; destruct (P =? 32)%nat; lia).
      assert (HR2 : 2 * Z.abs (rne (mant P) i' - i') <= 2 * rounding P).
      { pose proof (rne_error (mant P) i' (Z.of_nat P - 1)) as RE.
        transitivity (2 ^ (Z.of_nat P - 1 - mant P)).
        - apply RE; [destruct HP as [-> | ->]; vm_compute; split; discriminate|]. clearbody T E. clear - K2 K3 GB H0 HPp. set (x := 2 ^ (Z.of_nat P - 3)) in *. lia.
        - destruct HP as [-> | ->]; vm_compute; discriminate. }
      clearbody T E a. clear - K1 K2 K3 GB H0 HR2 Hpa. apply (chain_error k i (rne (mant P) i') (2 ^ a) (growth d E + rounding P) T); lia. }
    assert (HF : Forall2 (fun k k' => Z.abs (k - k') < 2 ^ (minexp + U P)) b (map (fun i => rne (mant P) i * 2 ^ a) b')).
    { rewrite ET. clearbody T a E. clear - HL F4 B2 Hmag. unfold close in B2. revert b' B2 Hmag. induction F4 as [|k i b2 ib2 [H1 _] F4 IH]; intros b' B2 Hmag; inversion B2; subst; cbn [map]; constructor.
      - apply (HL k i); auto. exact (Forall_inv Hmag).
      - apply IH; [assumption|exact (Forall_inv_tail Hmag)]. }
    assert (HFin : forallb (fun k => Z.abs k <? 2 ^ (EBIAS P + 1 + U P)) (map (fun i => rne (mant P) i * 2 ^ a) b') = true).
    { apply forallb_forall. intros k' K'. apply Z.ltb_lt.
      assert (2 ^ (emax + U P) <= 2 ^ (EBIAS P + 1 + U P)) by (apply Z.pow_le_mono_r; lia).
      apply In_nth with (d := 0) in K' as (j & J & <-).
      pose proof (Forall2_length_eq _ _ _ HF) as LL.
      assert (HJ : Z.abs (nth j b 0 - nth j (map (fun i => rne (mant P) i * 2 ^ a) b') 0) < 2 ^ (minexp + U P)).
      { clear - HF J LL. revert j J LL. induction HF as [|x y l l' H HF IH]; intros j J LL; [cbn in J; lia|]. destruct j as [|j]; [exact H|]. cbn [nth length] in *. apply IH; lia. }
      rewrite Forall_forall in C3. specialize (C3 (nth j b 0) ltac:(apply nth_In; rewrite LL; exact J)). cbv beta in C3. clear - C3 HJ H0. lia. }
    rewrite HFin. eexists. split; [reflexivity|]. split; [|exact HF]. symmetry. apply (Forall2_length_eq _ _ _ HF).
Qed.
