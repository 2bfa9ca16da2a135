(** Properties of the prime-factor complex Fourier transform (C31). *)
From Coq Require Import ZArith Reals List Lia Lra.
From Verif Require Import FdKernels KissFft FftSpec FftAux FftInverse FftSize PropertiesFftSize Pfa PfaProofs.
Import ListNotations.
Local Open Scope Z_scope.
Local Open Scope bool_scope.

Lemma supported_divided n : supported n -> divided n kfax n = true.
Proof.
  intros S. apply supported_table in S. assert (T : forallb (fun n => divided n kfax n) (map fst nctab) = true) by (vm_compute; reflexivity).
  rewrite forallb_forall in T. now apply T.
Qed.

(** The transform of any supported length in either direction: the n values are replaced by the discrete
    Fourier transform and nothing else is written. *)
Theorem C31_prime_factor n sign x : supported n -> sign = 1 \/ sign = -1 ->
  forall k, pfacc sign n x k = if (0 <=? k) && (k <? n) then dft n sign x k else x k.
Proof.
  intros S Hs k. pose proof (supported_range n S). destruct (pfacc_ok sign n x Hs ltac:(lia) (supported_divided n S)) as [K1 K2].
  destruct (Z.leb_spec 0 k), (Z.ltb_spec k n); cbn; [apply K1|apply K2|apply K2|apply K2]; lia.
Qed.
Print Assumptions C31_prime_factor.

(** Forward and back. *)
Theorem C31_prime_factor_inverse n sign x : supported n -> sign = 1 \/ sign = -1 ->
  forall k, 0 <= k < n -> pfacc (- sign) n (pfacc sign n x) k = scaled (IZR n) (x k).
Proof.
  intros S Hs k Hk. pose proof (supported_range n S). rewrite C31_prime_factor by (assumption || lia). replace ((0 <=? k) && (k <? n)) with true by lia.
  rewrite <- dft_inverse with (s := sign) by (exact Hs || exact Hk). unfold dft at 1 2. apply total_ext. intros j Hj.
  rewrite C31_prime_factor by assumption. replace ((0 <=? j) && (j <? n)) with true by lia. reflexivity.
Qed.
Print Assumptions C31_prime_factor_inverse.

(** All ten factors occur: for example 720720 = 16*9*5*7*11*13 and 24 = 8*3, 20 = 4*5, 2. *)
Example C31_prime_factor_nonvacuous : supported 720720 /\ supported 24 /\ supported 20 /\ supported 2.
Proof. repeat apply Logic.conj; apply supported_table; vm_compute; tauto. Qed.
Example C31_prime_factor_2 x : pfacc 1 2 x 0 = plus (x 0) (x 1).
Proof.
  rewrite C31_prime_factor by (apply C31_prime_factor_nonvacuous || auto). change ((0 <=? 0) && (0 <? 2)) with true. unfold dft. change (Z.to_nat 2) with 2%nat. cbn [total]. change (Z.of_nat 0) with 0. change (Z.of_nat 1) with 1. rewrite !Z.mul_0_r, !root_0. rewrite times_cmul, plus_cadd. change (0, 0)%R with c0. ring.
Qed.
