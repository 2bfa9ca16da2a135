(** Negabinary conversion. *)
From Coq Require Import ZArith List Bool Arith Lia.
From Verif Require Import ListAux Bits ZfpCodec ZfpXform BlockSpec EmbedSpec.
Import ListNotations.
Local Open Scope Z_scope.

Lemma alternating_bounds n : 0 <= alternating n < 4 ^ Z.of_nat n.
Proof.
  induction n; [cbn; lia|]. cbn [alternating]. rewrite Nat2Z.inj_succ, Z.pow_succ_r by lia. lia.
Qed.

Lemma lxor2 x y (b c : bool) :
  Z.lxor (2 * x + Z.b2z b) (2 * y + Z.b2z c) = 2 * Z.lxor x y + Z.b2z (xorb b c).
Proof.
  apply Z.bits_inj'. intros k K. rewrite Z.lxor_spec.
  destruct (Z.eq_dec k 0) as [->|N].
  - rewrite !Z.testbit_0_r. reflexivity.
  - replace k with (Z.succ (k - 1)) by lia. rewrite !Z.testbit_succ_r by lia. rewrite Z.lxor_spec. reflexivity.
Qed.

Lemma lxor4 a r s : 0 <= a < 4 -> Z.lxor (a + 4 * r) (2 + 4 * s) = Z.lxor a 2 + 4 * Z.lxor r s.
Proof.
  intros A.
  replace (2 + 4 * s) with (2 * (2 * s + Z.b2z true) + Z.b2z false) by (cbn [Z.b2z]; lia).
  assert (a = 0 \/ a = 1 \/ a = 2 \/ a = 3) as [->|[->|[->| ->]]] by lia.
  - replace (0 + 4 * r) with (2 * (2 * r + Z.b2z false) + Z.b2z false) by (cbn [Z.b2z]; lia).
    rewrite !lxor2. change (Z.lxor 0 2) with 2. cbn [xorb Z.b2z]. lia.
  - replace (1 + 4 * r) with (2 * (2 * r + Z.b2z false) + Z.b2z true) by (cbn [Z.b2z]; lia).
    rewrite !lxor2. change (Z.lxor 1 2) with 3. cbn [xorb Z.b2z]. lia.
  - replace (2 + 4 * r) with (2 * (2 * r + Z.b2z true) + Z.b2z false) by (cbn [Z.b2z]; lia).
    rewrite !lxor2. change (Z.lxor 2 2) with 0. cbn [xorb Z.b2z]. lia.
  - replace (3 + 4 * r) with (2 * (2 * r + Z.b2z true) + Z.b2z true) by (cbn [Z.b2z]; lia).
    rewrite !lxor2. change (Z.lxor 3 2) with 1. cbn [xorb Z.b2z]. lia.
Qed.

(** the mask form of the negabinary value *)
Lemma lxor_negaval n u : 0 <= u < 4 ^ Z.of_nat n ->
  Z.lxor u (alternating n) - alternating n = negaval (2 * n) u.
Proof.
  revert u; induction n; intros u U.
  - cbn in U. assert (u = 0) by lia. subst. reflexivity.
  - rewrite Nat2Z.inj_succ, Z.pow_succ_r in U by lia.
    pose proof (Z.div_mod u 4 ltac:(lia)) as D. pose proof (Z.mod_pos_bound u 4 ltac:(lia)) as M.
    set (r := u / 4) in *. set (m := u mod 4) in *. clearbody r m.
    replace (2 * S n)%nat with (S (S (2 * n))) by lia. cbn [negaval alternating].
    assert (R : negaval (2 * n) (u / 2 / 2) = Z.lxor r (alternating n) - alternating n).
    { rewrite IHn by lia. f_equal. rewrite Z.div_div by lia. symmetry. apply (Z.div_unique u (2 * 2) r m); lia. }
    rewrite R. replace u with (m + 4 * r) by lia. rewrite lxor4 by lia.
    set (L := Z.lxor r (alternating n)). clearbody L.
    assert (O1 : Z.odd (m + 4 * r) = Z.odd m).
    { replace (4 * r) with (2 * (2 * r)) by lia. apply Z.odd_add_mul_2. }
    assert (O2 : (m + 4 * r) / 2 = m / 2 + 2 * r).
    { symmetry. apply (Z.div_unique _ 2 _ (m mod 2)); [left; apply Z.mod_pos_bound; lia|]. pose proof (Z.div_mod m 2 ltac:(lia)). lia. }
    rewrite O1, O2, Z.odd_add_mul_2.
    assert (m = 0 \/ m = 1 \/ m = 2 \/ m = 3) as [->|[->|[->| ->]]] by lia.
    + change (Z.lxor 0 2) with 2. change (Z.b2z (Z.odd 0)) with 0. change (Z.b2z (Z.odd (0 / 2))) with 0. lia.
    + change (Z.lxor 1 2) with 3. change (Z.b2z (Z.odd 1)) with 1. change (Z.b2z (Z.odd (1 / 2))) with 0. lia.
    + change (Z.lxor 2 2) with 0. change (Z.b2z (Z.odd 2)) with 0. change (Z.b2z (Z.odd (2 / 2))) with 1. lia.
    + change (Z.lxor 3 2) with 1. change (Z.b2z (Z.odd 3)) with 1. change (Z.b2z (Z.odd (3 / 2))) with 1. lia.
Qed.

(** range of n-digit numerals *)
Lemma negaval_range n u : - 2 * (2 ^ Z.of_nat n - 1) <= 3 * negaval n u <= 2 * 2 ^ Z.of_nat n - 1 /\
  (Nat.even n = true -> 3 * negaval n u <= 2 ^ Z.of_nat n - 1).
Proof.
  assert (K : forall n u,
    (if Nat.even n then - 2 * (2 ^ Z.of_nat n - 1) <= 3 * negaval n u <= 2 ^ Z.of_nat n - 1
     else - (2 ^ Z.of_nat n - 2) <= 3 * negaval n u <= 2 * 2 ^ Z.of_nat n - 1)).
  { clear. induction n; intros u; [cbn; lia|].
    rewrite Nat.even_succ, <- Nat.negb_even. specialize (IHn (u / 2)).
    rewrite Nat2Z.inj_succ, Z.pow_succ_r by lia. cbn [negaval].
    assert (0 <= Z.b2z (Z.odd u) <= 1) by (destruct (Z.odd u); cbn; lia).
    destruct (Nat.even n); cbn [negb]; lia. }
  specialize (K n u). assert (1 <= 2 ^ Z.of_nat n) by (pose proof (Z.pow_pos_nonneg 2 (Z.of_nat n)); lia).
  destruct (Nat.even n); split; try discriminate; lia.
Qed.

(** splitting off the low k digits *)
Lemma negaval_split k m u : negaval (k + m) u = negaval k (u mod 2 ^ Z.of_nat k) + (- 2) ^ Z.of_nat k * negaval m (u / 2 ^ Z.of_nat k).
Proof.
  revert u; induction k; intros u.
  - cbn [negaval Nat.add]. change (2 ^ Z.of_nat 0) with 1. rewrite Z.div_1_r. change ((-2) ^ Z.of_nat 0) with 1. lia.
  - cbn [Nat.add negaval]. rewrite IHk. rewrite Nat2Z.inj_succ, !Z.pow_succ_r by lia.
    assert (HQ : 0 < 2 ^ Z.of_nat k) by (apply Z.pow_pos_nonneg; lia).
    assert (E1 : u / (2 * 2 ^ Z.of_nat k) = u / 2 / 2 ^ Z.of_nat k) by (rewrite Z.div_div by lia; reflexivity).
    assert (E2 : Z.odd (u mod (2 * 2 ^ Z.of_nat k)) = Z.odd u).
    { rewrite <- !Z.bit0_odd. rewrite <- Z.pow_succ_r by lia. apply Z.mod_pow2_bits_low. lia. }
    assert (E3 : u mod (2 * 2 ^ Z.of_nat k) / 2 = (u / 2) mod 2 ^ Z.of_nat k).
    { rewrite Z.rem_mul_r by lia. rewrite Z.add_comm, Z.mul_comm, Z.div_add_l by lia.
      rewrite (Z.div_small (u mod 2) 2) by (apply Z.mod_pos_bound; lia). lia. }
    rewrite E1, E2, E3. lia.
Qed.

Section N.
Variable P : nat.
Hypothesis HP : P = 32%nat \/ P = 64%nat.
Let M := 2 ^ Z.of_nat P.

Lemma P_even : Z.of_nat P = 2 * Z.of_nat (P / 2).
Proof. destruct HP as [-> | ->]; reflexivity. Qed.
Lemma P_half : (2 * (P / 2) = P)%nat.
Proof. destruct HP as [-> | ->]; reflexivity. Qed.
Lemma M_four : M = 4 * 2 ^ (Z.of_nat P - 2) /\ 2 ^ (Z.of_nat P - 1) = 2 * 2 ^ (Z.of_nat P - 2) /\ 16 <= 2 ^ (Z.of_nat P - 2).
Proof. unfold M. destruct HP as [-> | ->]; vm_compute; repeat split; discriminate. Qed.
Lemma NBMASK_bounds : 0 <= NBMASK P < M.
Proof.
  unfold NBMASK, M. rewrite P_even. rewrite Z.pow_mul_r by lia. apply (alternating_bounds (P / 2)).
Qed.

Lemma lxor_bounds u v : 0 <= u < M -> 0 <= v < M -> 0 <= Z.lxor u v < M.
Proof.
  intros U V. split; [apply Z.lxor_nonneg; lia|].
  destruct (Z.eq_dec (Z.lxor u v) 0) as [->|N]; [lia|].
  assert (0 <= Z.lxor u v) by (apply Z.lxor_nonneg; lia).
  apply Z.log2_lt_pow2; [lia|]. pose proof (Z.log2_lxor u v).
  assert (LU : forall x, 0 <= x < M -> Z.log2 x < Z.of_nat P).
  { intros x X. destruct (Z.eq_dec x 0) as [->|]; [cbn; destruct HP; lia|]. apply Z.log2_lt_pow2; [lia|]. apply X. }
  pose proof (LU u U). pose proof (LU v V). lia.
Qed.

Lemma to_int_mod x : - 2 ^ (Z.of_nat P - 1) <= x < 2 ^ (Z.of_nat P - 1) -> to_int P (x mod M) = x.
Proof.
  intros X. pose proof M_four as (A & B & C). unfold to_int. fold M.
  destruct (Z.lt_ge_cases x 0).
  - assert (x mod M = x + M). { symmetry. apply (Z.mod_unique x M (-1)); lia. }
    rewrite H0. destruct (Z.ltb_spec (x + M) (2 ^ (Z.of_nat P - 1))); lia.
  - rewrite Z.mod_small by lia. destruct (Z.ltb_spec x (2 ^ (Z.of_nat P - 1))); lia.
Qed.
Lemma to_int_range u : 0 <= u < M -> - 2 ^ (Z.of_nat P - 1) <= to_int P u < 2 ^ (Z.of_nat P - 1).
Proof.
  intros U. pose proof M_four as (A & B & C). unfold to_int. fold M.
  destruct (Z.ltb_spec u (2 ^ (Z.of_nat P - 1))); lia.
Qed.
Lemma to_int_cong u : 0 <= u < M -> to_int P u mod M = u.
Proof.
  intros U. pose proof M_four as (A & B & C). unfold to_int. fold M.
  destruct (Z.ltb_spec u (2 ^ (Z.of_nat P - 1))).
  - apply Z.mod_small; lia.
  - symmetry. apply (Z.mod_unique _ M (-1)); lia.
Qed.

Lemma uint2int_int2uint x : - 2 ^ (Z.of_nat P - 1) <= x < 2 ^ (Z.of_nat P - 1) ->
  uint2int P (int2uint P x) = x.
Proof.
  intros X. pose proof M_four as (A & B & C). unfold uint2int, int2uint, uintP. fold M.
  rewrite Z.lxor_assoc, Z.lxor_nilpotent, Z.lxor_0_r.
  rewrite <- (to_int_mod x) by assumption. f_equal.
  rewrite Zplus_mod_idemp_l, Zminus_mod_idemp_l. rewrite to_int_mod by assumption. f_equal. lia.
Qed.

Lemma int2uint_range x : 0 <= int2uint P x < M.
Proof.
  unfold int2uint, uintP. fold M. pose proof M_four as (A & B & C). apply lxor_bounds; [apply Z.mod_pos_bound; lia|apply NBMASK_bounds].
Qed.
Lemma uint2int_range u : - 2 ^ (Z.of_nat P - 1) <= uint2int P u < 2 ^ (Z.of_nat P - 1).
Proof.
  unfold uint2int, uintP. pose proof M_four as (A & B & C). apply to_int_range. apply Z.mod_pos_bound. fold M. lia.
Qed.

Lemma int2uint_uint2int u : 0 <= u < M -> int2uint P (uint2int P u) = u.
Proof.
  intros U. pose proof M_four as (A & B & C). unfold uint2int, int2uint, uintP. fold M.
  rewrite to_int_cong by (apply Z.mod_pos_bound; lia).
  rewrite Zplus_mod_idemp_l.
  replace (Z.lxor u (NBMASK P) - NBMASK P + NBMASK P) with (Z.lxor u (NBMASK P)) by lia.
  rewrite Z.mod_small by (apply lxor_bounds; [assumption|apply NBMASK_bounds]).
  rewrite Z.lxor_assoc, Z.lxor_nilpotent, Z.lxor_0_r. reflexivity.
Qed.

(** the word is the negabinary numeral of the integer (modulo 2^P) *)
Lemma uint2int_negaval u : 0 <= u < M -> uint2int P u = to_int P (negaval P u mod M).
Proof.
  intros U. unfold uint2int, uintP, NBMASK. fold M.
  rewrite lxor_negaval.
  - rewrite P_half. reflexivity.
  - unfold M in U. rewrite P_even, Z.pow_mul_r in U by lia. exact U.
Qed.

Lemma negaval_int2uint v : Z.abs v <= 2 ^ (Z.of_nat P - 2) -> negaval P (int2uint P v) = v.
Proof.
  intros V. pose proof M_four as (A & B & C).
  pose proof (uint2int_negaval _ (int2uint_range v)) as N.
  rewrite uint2int_int2uint in N by lia.
  pose proof (negaval_range P (int2uint P v)) as [R R2].
  specialize (R2 ltac:(destruct HP as [-> | ->]; reflexivity)). fold M in R, R2.
  set (n := negaval P (int2uint P v)) in *. clearbody n.
  assert (CG : v mod M = n mod M).
  { rewrite N. rewrite to_int_cong; [reflexivity|]. apply Z.mod_pos_bound; lia. }
  pose proof (Z.div_mod v M ltac:(lia)) as D1. pose proof (Z.div_mod n M ltac:(lia)) as D2. rewrite CG in D1.
  assert (v - n = M * (v / M - n / M)) as D by lia.
  set (q := v / M - n / M) in *. clearbody q. clear D1 D2 CG N.
  assert (- 1 < q < 1) by nia. lia.
Qed.

(** dropping the low k digits *)
Lemma keep_top_error v prec : Z.abs v <= 2 ^ (Z.of_nat P - 2) -> 
  Z.abs (v - uint2int P (keep_top P prec (int2uint P v))) < 2 ^ Z.of_nat (P - prec).
Proof.
  intros V. pose proof M_four as (A & B & C).
  pose proof (negaval_int2uint v V) as N. pose proof (int2uint_range v) as U.
  set (u := int2uint P v) in *. clearbody u. unfold keep_top.
  set (k := (P - prec)%nat). assert (KP : (k <= P)%nat) by (unfold k; lia). clearbody k.
  set (Q := 2 ^ Z.of_nat k). assert (HQ : 0 < Q) by (apply Z.pow_pos_nonneg; lia).
  assert (K0 : 0 <= u - u mod Q <= u).
  { pose proof (Z.mod_pos_bound u Q HQ). pose proof (Z.mod_le u Q). lia. }
  rewrite uint2int_negaval by lia.
  pose proof (negaval_split k (P - k) u) as S1. replace (k + (P - k))%nat with P in S1 by lia. fold Q in S1.
  pose proof (negaval_split k (P - k) (u - u mod Q)) as S2. replace (k + (P - k))%nat with P in S2 by lia. fold Q in S2.
  assert (E1 : (u - u mod Q) mod Q = 0).
  { rewrite Zminus_mod_idemp_r. rewrite Z.sub_diag. apply Z.mod_0_l. lia. }
  assert (E2 : (u - u mod Q) / Q = u / Q).
  { rewrite (Z.div_mod u Q) at 1 by lia. replace (Q * (u / Q) + u mod Q - u mod Q) with (u / Q * Q) by lia. apply Z.div_mul. lia. }
  rewrite E1, E2 in S2.
  assert (Z0 : forall n, negaval n 0 = 0) by (induction n; cbn [negaval]; [reflexivity|change (0 / 2) with 0; rewrite IHn; reflexivity]).
  rewrite Z0 in S2.
  pose proof (negaval_range k (u mod Q)) as [R _]. fold Q in R.
  assert (RG : - 2 ^ (Z.of_nat P - 1) <= negaval P (u - u mod Q) < 2 ^ (Z.of_nat P - 1)).
  { destruct (le_lt_dec k (P - 2)) as [KK|KK].
    - assert (Q <= 2 ^ (Z.of_nat P - 2)) by (apply Z.pow_le_mono_r; lia). lia.
    - rewrite S2. destruct (Nat.eq_dec k P) as [->|NK].
      + rewrite Nat.sub_diag. cbn [negaval]. lia.
      + assert (k = (P - 1)%nat) by lia. subst k. replace (P - (P - 1))%nat with 1%nat by (destruct HP; lia).
        cbn [negaval]. replace ((-2) ^ Z.of_nat (P - 1)) with (- 2 ^ (Z.of_nat P - 1)) by (destruct HP as [-> | ->]; reflexivity).
        destruct (Z.odd (u / Q)); cbn [Z.b2z]; lia. }
  rewrite to_int_mod by assumption. lia.
Qed.
End N.
