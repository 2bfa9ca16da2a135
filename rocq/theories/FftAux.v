(** Complex numbers, sums and roots of unity. *)
From Coq Require Import ZArith Reals List Lia Lra Ring.
From Verif Require Import FdKernels FdProofs FdOutputProofs Marchenko MarchenkoProofs KissFft FftSpec.
Import ListNotations.
Local Open Scope Z_scope.

Definition c0 : C := (0, 0)%R.
Definition c1 : C := (1, 0)%R.
Definition copp (a : C) : C := (- fst a, - snd a)%R.
Definition conj (a : C) : C := (fst a, - snd a)%R.
Lemma C_eq (a b : C) : fst a = fst b -> snd a = snd b -> a = b.
Proof. destruct a, b; cbn; congruence. Qed.
Ltac cring := repeat match goal with x : (_ * _)%type |- _ => destruct x end; unfold cadd, cmul, csub, copp, conj, c0, c1; cbn [fst snd]; f_equal; ring.
Lemma C_ring_theory : ring_theory c0 c1 cadd cmul csub copp eq.
Proof. constructor; intros; cring. Qed.
Add Ring C_ring : C_ring_theory.
Lemma times_cmul : times = cmul. Proof. reflexivity. Qed.
Lemma plus_cadd : plus = cadd. Proof. reflexivity. Qed.

(** sums *)
Lemma total_ext n f g : (forall i, 0 <= i < Z.of_nat n -> f i = g i) -> total n f = total n g.
Proof. induction n as [|n IH]; intros H; [reflexivity|]. cbn [total]. rewrite IH by (intros; apply H; lia). now rewrite H by lia. Qed.
Lemma total_add n f g : total n (fun i => cadd (f i) (g i)) = cadd (total n f) (total n g).
Proof. induction n as [|n IH]; cbn [total]; [change (0, 0)%R with c0; ring|]. rewrite IH. change plus with cadd. ring. Qed.
Lemma total_mul_l n c f : total n (fun i => cmul c (f i)) = cmul c (total n f).
Proof. induction n as [|n IH]; cbn [total]; [change (0, 0)%R with c0; ring|]. rewrite IH. change plus with cadd. ring. Qed.
Lemma total_mul_r n c f : total n (fun i => cmul (f i) c) = cmul (total n f) c.
Proof. induction n as [|n IH]; cbn [total]; [change (0, 0)%R with c0; ring|]. rewrite IH. change plus with cadd. ring. Qed.
Lemma total_zero n f : (forall i, 0 <= i < Z.of_nat n -> f i = c0) -> total n f = c0.
Proof. induction n as [|n IH]; intros H; [reflexivity|]. cbn [total]. rewrite IH by (intros; apply H; lia). rewrite H by lia. change plus with cadd. ring. Qed.
Lemma total_app a b f : total (a + b) f = cadd (total a f) (total b (fun i => f (Z.of_nat a + i))).
Proof.
  induction b as [|b IH]; [rewrite Nat.add_0_r; cbn [total]; change (0, 0)%R with c0; ring|].
  rewrite Nat.add_succ_r. cbn [total]. rewrite IH. change plus with cadd. rewrite Nat2Z.inj_add. ring.
Qed.
Lemma total_swap a b (f : Z -> Z -> C) : total a (fun i => total b (fun j => f i j)) = total b (fun j => total a (fun i => f i j)).
Proof.
  induction a as [|a IH]; cbn [total].
  - symmetry. apply total_zero. reflexivity.
  - rewrite IH. change plus with cadd. rewrite <- total_add. reflexivity.
Qed.
(** the sum over i < p*m by the residue of i modulo p *)
Lemma total_split p m f : (0 < p)%nat -> total (p * m) f = total p (fun q => total m (fun j => f (q + Z.of_nat p * j))).
Proof.
  intros Hp. induction m as [|m IH].
  - rewrite Nat.mul_0_r. cbn [total]. symmetry. apply total_zero. reflexivity.
  - rewrite Nat.mul_succ_r, total_app, IH. cbn [total]. change plus with cadd. rewrite total_add. f_equal. apply total_ext. intros i Hi. f_equal. nia.
Qed.
Lemma total_single n f k : 0 <= k < Z.of_nat n -> (forall i, 0 <= i < Z.of_nat n -> i <> k -> f i = c0) -> total n f = f k.
Proof.
  induction n as [|n IH]; intros Hk H; [lia|]. cbn [total]. change plus with cadd. destruct (Z.eq_dec k (Z.of_nat n)) as [-> |N].
  - rewrite total_zero by (intros; apply H; lia). ring.
  - rewrite (H (Z.of_nat n)) by lia. rewrite IH; [ring|lia|intros; apply H; lia].
Qed.
Lemma fold_total (f : Z -> C) n : fold_left (fun s i => cadd s (f i)) (range 0 n) c0 = total (Z.to_nat n) f.
Proof.
  destruct (Z.le_gt_cases n 0); [rewrite range_nil by lia; replace (Z.to_nat n) with 0%nat by lia; reflexivity|].
  rewrite <- (Z2Nat.id n) at 1 by lia. generalize (Z.to_nat n). clear. induction n as [|n IH]; [reflexivity|].
  rewrite Nat2Z.inj_succ. unfold Z.succ. rewrite range_snoc, fold_left_app by lia. cbn [fold_left total]. now rewrite IH.
Qed.

(** roots of unity *)
Lemma root_0 n s : root n s 0 = c1.
Proof. unfold root, c1. replace (2 * PI * 0 / IZR n)%R with 0%R by (unfold Rdiv; ring). rewrite cos_0, sin_0. f_equal. ring. Qed.
Section Sign.
Variable s : Z.
Hypothesis Hs : s = 1 \/ s = -1.
Lemma sign_sq : (IZR s * IZR s = 1)%R.
Proof. rewrite <- mult_IZR. destruct Hs as [-> | ->]; reflexivity. Qed.
Lemma root_add n i j : root n s (i + j) = cmul (root n s i) (root n s j).
Proof.
  unfold root, cmul. cbn [fst snd]. rewrite plus_IZR. replace (2 * PI * (IZR i + IZR j) / IZR n)%R with (2 * PI * IZR i / IZR n + 2 * PI * IZR j / IZR n)%R by (unfold Rdiv; ring).
  rewrite cos_plus, sin_plus. pose proof sign_sq as Q. f_equal; [|ring].
  replace (IZR s * sin (2 * PI * IZR i / IZR n) * (IZR s * sin (2 * PI * IZR j / IZR n)))%R with (IZR s * IZR s * (sin (2 * PI * IZR i / IZR n) * sin (2 * PI * IZR j / IZR n)))%R by ring. rewrite Q. ring.
Qed.
Lemma root_opp n i : root n s (- i) = conj (root n s i).
Proof.
  unfold root, conj. cbn [fst snd]. rewrite opp_IZR. replace (2 * PI * - IZR i / IZR n)%R with (- (2 * PI * IZR i / IZR n))%R by (unfold Rdiv; ring). rewrite cos_neg, sin_neg. f_equal. ring.
Qed.
Lemma root_full n : n <> 0 -> root n s n = c1.
Proof.
  intros Hn. unfold root, c1. replace (2 * PI * IZR n / IZR n)%R with (2 * PI)%R by (field; now apply not_0_IZR). rewrite cos_2PI, sin_2PI. f_equal. ring.
Qed.
Lemma root_mult n k : n <> 0 -> root n s (n * k) = c1.
Proof.
  intros Hn. destruct (Z.le_gt_cases 0 k) as [H|H].
  - revert k H. apply natlike_ind; [rewrite Z.mul_0_r; apply root_0|]. intros k Hk IH. rewrite Z.mul_succ_r, root_add, IH, root_full by exact Hn. ring.
  - replace (n * k) with (- (n * - k)) by ring. rewrite root_opp. replace (root n s (n * - k)) with c1; [unfold conj, c1; cbn; f_equal; ring|]. symmetry.
    assert (H' : 0 <= - k) by lia. revert H'. generalize (- k). clear k H. apply natlike_ind; [rewrite Z.mul_0_r; apply root_0|]. intros k Hk IH. rewrite Z.mul_succ_r, root_add, IH, root_full by exact Hn. ring.
Qed.
Lemma root_mod n k : n <> 0 -> root n s (k mod n) = root n s k.
Proof. intros Hn. rewrite (Z.div_mod k n) at 2 by exact Hn. rewrite root_add, root_mult by exact Hn. ring. Qed.
Lemma root_scale n d k : n <> 0 -> d <> 0 -> root (d * n) s (d * k) = root n s k.
Proof.
  intros Hn Hd. unfold root. rewrite !mult_IZR. replace (2 * PI * (IZR d * IZR k) / (IZR d * IZR n))%R with (2 * PI * IZR k / IZR n)%R; [reflexivity|]. field. split; now apply not_0_IZR.
Qed.
Lemma root_half n i : n <> 0 -> 2 * i = n -> root n s i = copp c1.
Proof.
  intros Hn H. unfold root, copp, c1. cbn [fst snd]. replace (2 * PI * IZR i / IZR n)%R with PI.
  - rewrite cos_PI, sin_PI. f_equal. ring.
  - assert (IZR n = 2 * IZR i)%R by (rewrite <- H, mult_IZR; reflexivity). rewrite H0. field. apply not_0_IZR. lia.
Qed.
Lemma root_quarter n i : n <> 0 -> 4 * i = n -> root n s i = (0, IZR s)%R.
Proof.
  intros Hn H. unfold root. replace (2 * PI * IZR i / IZR n)%R with (PI / 2)%R.
  - rewrite cos_PI2, sin_PI2. f_equal. ring.
  - assert (IZR n = 4 * IZR i)%R by (rewrite <- H, mult_IZR; reflexivity). rewrite H0. field. apply not_0_IZR. lia.
Qed.
Lemma root_third n i : n <> 0 -> 3 * i = n -> fst (root n s i) = (- / 2)%R.
Proof.
  intros Hn H. unfold root. cbn [fst]. replace (2 * PI * IZR i / IZR n)%R with (2 * (PI / 3))%R.
  - rewrite cos_2PI3. lra.
  - assert (IZR n = 3 * IZR i)%R by (rewrite <- H, mult_IZR; reflexivity). rewrite H0. field. apply not_0_IZR. lia.
Qed.
End Sign.
