(** Bit lists and their relation to integers.  This file is pure arithmetic:
    it models no code of /repo; it is the vocabulary of the specifications. *)
From Coq Require Import ZArith Lia List Bool Arith.
Import ListNotations.
Local Open Scope Z_scope.

(** [zbits n v]: the [n] low bits of [v], least significant first. *)
Fixpoint zbits (n : nat) (v : Z) : list bool :=
  match n with
  | O => []
  | S n' => Z.odd v :: zbits n' (Z.div2 v)
  end.

(** [bitsz l]: the integer whose binary digits are [l], least significant first. *)
Fixpoint bitsz (l : list bool) : Z :=
  match l with
  | [] => 0
  | b :: r => Z.b2z b + 2 * bitsz r
  end.

Lemma zbits_length n : forall v, length (zbits n v) = n.
Proof. induction n; simpl; intros; auto. Qed.

Lemma pow2_pos n : 0 <= n -> 0 < 2 ^ n.
Proof. intros; apply Z.pow_pos_nonneg; lia. Qed.

Lemma pow2_S n : 2 ^ Z.of_nat (S n) = 2 * 2 ^ Z.of_nat n.
Proof. rewrite Nat2Z.inj_succ, Z.pow_succ_r; lia. Qed.

Lemma odd_div2 v : v = Z.b2z (Z.odd v) + 2 * Z.div2 v.
Proof. pose proof (Z.div2_odd v). destruct (Z.odd v); simpl Z.b2z in *; lia. Qed.

Lemma bitsz_bound l : 0 <= bitsz l < 2 ^ Z.of_nat (length l).
Proof.
  induction l; cbn [bitsz length]. { simpl; lia. }
  rewrite pow2_S. destruct a; simpl Z.b2z; lia.
Qed.

Lemma bitsz_zbits n : forall v, bitsz (zbits n v) = v mod 2 ^ Z.of_nat n.
Proof.
  induction n; intros v; cbn [zbits bitsz].
  - change (2 ^ Z.of_nat 0) with 1. rewrite Z.mod_1_r. reflexivity.
  - rewrite IHn, pow2_S.
    pose proof (pow2_pos (Z.of_nat n) ltac:(lia)) as Hp.
    rewrite Z.div2_div.
    rewrite (Z.rem_mul_r v 2 (2 ^ Z.of_nat n)) by lia.
    rewrite Zmod_odd. destruct (Z.odd v); simpl Z.b2z; lia.
Qed.

Lemma zbits_bitsz l : zbits (length l) (bitsz l) = l.
Proof.
  induction l; cbn [zbits bitsz length]; auto.
  assert (Z.div2 (Z.b2z a + 2 * bitsz l) = bitsz l) as ->.
  { rewrite Z.div2_div. destruct a; simpl Z.b2z.
    - rewrite Z.add_comm, Z.mul_comm, Z.div_add_l by lia. change (1/2) with 0. lia.
    - rewrite Z.add_0_l, Z.mul_comm, Z.div_mul; lia. }
  assert (Z.odd (Z.b2z a + 2 * bitsz l) = a) as ->.
  { rewrite Z.odd_add_mul_2. destruct a; reflexivity. }
  rewrite IHl. reflexivity.
Qed.

Lemma zbits_app n m : forall v, zbits (n + m) v = zbits n v ++ zbits m (v / 2 ^ Z.of_nat n).
Proof.
  induction n; intros v.
  - change (2 ^ Z.of_nat 0) with 1. rewrite Z.div_1_r. reflexivity.
  - change (S n + m)%nat with (S (n + m)). cbn [zbits app].
    rewrite IHn, pow2_S, Z.div2_div.
    rewrite Z.div_div by (try lia; apply Z.pow_pos_nonneg; lia). reflexivity.
Qed.

Lemma zbits_mod n : forall v, zbits n (v mod 2 ^ Z.of_nat n) = zbits n v.
Proof.
  intros v. rewrite <- bitsz_zbits.
  rewrite <- (zbits_length n v) at 1. apply zbits_bitsz.
Qed.

Lemma zbits_mod_le n m v : (n <= m)%nat -> zbits n (v mod 2 ^ Z.of_nat m) = zbits n v.
Proof.
  intros H. rewrite <- (zbits_mod n (v mod _)).
  rewrite <- (zbits_mod n v).
  f_equal. rewrite <- Znumtheory.Zmod_div_mod; auto; try (apply Z.pow_pos_nonneg; lia).
  exists (2 ^ Z.of_nat (m - n)). rewrite <- Z.pow_add_r by lia. f_equal; lia.
Qed.

Lemma zbits_ext n v w :
  v mod 2 ^ Z.of_nat n = w mod 2 ^ Z.of_nat n -> zbits n v = zbits n w.
Proof. intros. rewrite <- (zbits_mod n v), <- (zbits_mod n w). congruence. Qed.

Lemma zbits_inj n v w :
  0 <= v < 2 ^ Z.of_nat n -> 0 <= w < 2 ^ Z.of_nat n -> zbits n v = zbits n w -> v = w.
Proof.
  intros Hv Hw H. rewrite <- (Z.mod_small v _ Hv), <- (Z.mod_small w _ Hw).
  rewrite <- !bitsz_zbits. congruence.
Qed.

Lemma zbits_0 n : zbits n 0 = repeat false n.
Proof. induction n; simpl; congruence. Qed.

(** Concatenation of digit lists is addition after a shift. *)
Lemma zbits_concat n m v w :
  0 <= v < 2 ^ Z.of_nat n -> zbits (n + m) (v + w * 2 ^ Z.of_nat n) = zbits n v ++ zbits m w.
Proof.
  intros H. rewrite zbits_app. f_equal.
  - apply zbits_ext. rewrite Z.mod_add; lia.
  - f_equal. rewrite Z.div_add by lia. rewrite Z.div_small; lia.
Qed.

Lemma bitsz_app l r : bitsz (l ++ r) = bitsz l + bitsz r * 2 ^ Z.of_nat (length l).
Proof.
  induction l; cbn [bitsz app length].
  - change (2 ^ Z.of_nat 0) with 1. lia.
  - rewrite IHl, pow2_S. lia.
Qed.

Lemma zbits_testbit n : forall v,
  zbits n v = map (fun i => Z.testbit v (Z.of_nat i)) (seq 0 n).
Proof.
  induction n; intros v; [reflexivity|].
  cbn [zbits seq map]. f_equal.
  rewrite IHn, <- seq_shift, map_map. apply map_ext. intros i.
  rewrite Nat2Z.inj_succ, <- Z.div2_bits, Z.div2_div by lia. reflexivity.
Qed.

Lemma nth_zbits n v i : (i < n)%nat -> nth i (zbits n v) false = Z.testbit v (Z.of_nat i).
Proof.
  intros H. rewrite zbits_testbit.
  rewrite nth_indep with (d' := (fun i => Z.testbit v (Z.of_nat i)) 0%nat)
    by (rewrite map_length, seq_length; lia).
  rewrite (map_nth (fun i => Z.testbit v (Z.of_nat i))), seq_nth by lia. reflexivity.
Qed.

Lemma land_ones_mod v n : 0 <= n -> Z.land v (2 ^ n - 1) = v mod 2 ^ n.
Proof.
  intros. rewrite <- Z.land_ones by lia. f_equal. rewrite Z.ones_equiv. lia.
Qed.

Lemma firstn_zbits n m v : (n <= m)%nat -> firstn n (zbits m v) = zbits n v.
Proof.
  intros. replace m with (n + (m - n))%nat by lia. rewrite zbits_app.
  rewrite firstn_app, zbits_length, Nat.sub_diag. cbn [firstn]. rewrite app_nil_r.
  rewrite <- (zbits_length n v) at 1. apply firstn_all.
Qed.

Lemma skipn_zbits n m v : (n <= m)%nat -> skipn n (zbits m v) = zbits (m - n) (v / 2 ^ Z.of_nat n).
Proof.
  intros. replace m with (n + (m - n))%nat at 1 by lia. rewrite zbits_app.
  rewrite skipn_app, zbits_length, Nat.sub_diag. cbn [skipn].
  rewrite <- (zbits_length n v) at 1. rewrite skipn_all. reflexivity.
Qed.

Lemma bitsz_firstn n l : bitsz (firstn n l) = bitsz l mod 2 ^ Z.of_nat n.
Proof.
  destruct (le_lt_dec (length l) n) as [H|H].
  - rewrite firstn_all2 by lia. rewrite Z.mod_small; auto.
    pose proof (bitsz_bound l).
    assert (2 ^ Z.of_nat (length l) <= 2 ^ Z.of_nat n) by (apply Z.pow_le_mono_r; lia). lia.
  - rewrite <- (zbits_bitsz l) at 1. rewrite firstn_zbits by lia. apply bitsz_zbits.
Qed.

Lemma bitsz_skipn n l : (n <= length l)%nat -> bitsz (skipn n l) = bitsz l / 2 ^ Z.of_nat n.
Proof.
  intros H. rewrite <- (firstn_skipn n l) at 2.
  rewrite bitsz_app, firstn_length_le by lia.
  pose proof (bitsz_bound (firstn n l)) as Hb. rewrite firstn_length_le in Hb by lia.
  rewrite Z.div_add by lia. rewrite Z.div_small; lia.
Qed.
