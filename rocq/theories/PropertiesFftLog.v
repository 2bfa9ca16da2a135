(** The logarithm in the choice of the transform length (C29), over the real numbers. *)
From Coq Require Import ZArith Reals Lia Lra.
From Verif Require Import FftSize PropertiesFftSize.
Local Open Scope R_scope.

Lemma ln_pow_Z a k : 0 < a -> (0 <= k)%Z -> ln (powerRZ a k) = IZR k * ln a.
Proof.
  intros Ha Hk. destruct (IZN k Hk) as (m & ->). rewrite <- pow_powerRZ, <- INR_IZR_INZ. induction m as [|m IH].
  - cbn [pow]. rewrite ln_1. cbn. ring.
  - cbn [pow]. rewrite ln_mult; [|exact Ha|now apply pow_lt]. rewrite IH by lia. rewrite S_INR. ring.
Qed.
Lemma IZR_pow_Z a k : (0 <= k)%Z -> IZR (a ^ k) = powerRZ (IZR a) k.
Proof. intros Hk. destruct (IZN k Hk) as (m & ->). rewrite <- pow_IZR, pow_powerRZ. reflexivity. Qed.
(** guess n is the integer part of log2 n + 0.9999 *)
Theorem C29_logarithm n : (1 <= n)%Z -> let x := ln (IZR n) / ln 2 + 9999 / 10000 in IZR (guess n) <= x < IZR (guess n) + 1.
Proof.
  intros Hn x. destruct (guess_range 10000 n ltac:(lia) Hn) as (G0 & G1 & G2). rewrite <- guess_eq in G0, G1, G2. set (g := guess n) in *. clearbody g.
  assert (L2 : 0 < ln 2) by (rewrite <- ln_1; apply ln_increasing; lra). assert (Hn' : 0 < IZR n) by (apply IZR_lt; lia).
  assert (P2 : forall k, 0 < powerRZ 2 k) by (intros; apply powerRZ_lt; lra). assert (Pn : forall k, 0 < powerRZ (IZR n) k) by (intros; now apply powerRZ_lt).
  apply IZR_le in G1. apply IZR_lt in G2. rewrite mult_IZR in G1, G2. rewrite !IZR_pow_Z in G1, G2 by lia.
  assert (Q : ln (powerRZ (IZR n) 10000 * powerRZ 2 (10000 - 1)) = 10000 * ln (IZR n) + 9999 * ln 2).
  { rewrite ln_mult by auto. rewrite !ln_pow_Z by (lia || lra). f_equal. }
  assert (A : IZR (10000 * g) * ln 2 <= 10000 * ln (IZR n) + 9999 * ln 2).
  { rewrite <- Q, <- ln_pow_Z by (lia || lra). destruct G1 as [G1|G1]; [left; apply ln_increasing; [auto|exact G1]|right; now rewrite G1]. }
  assert (B : 10000 * ln (IZR n) + 9999 * ln 2 < IZR (10000 * (g + 1)) * ln 2).
  { rewrite <- Q, <- (ln_pow_Z 2) by (lia || lra). apply ln_increasing; [apply Rmult_lt_0_compat; auto|exact G2]. }
  rewrite mult_IZR in A, B. rewrite plus_IZR in B.
  assert (E : x * ln 2 = ln (IZR n) + 9999 / 10000 * ln 2) by (unfold x; field; lra). split.
  - apply Rmult_le_reg_r with (ln 2); [exact L2|]. rewrite E. lra.
  - apply Rmult_lt_reg_r with (ln 2); [exact L2|]. rewrite E. lra.
Qed.
Print Assumptions C29_logarithm.
