(** Properties of the mixed-radix complex Fourier transform (C31). *)
From Coq Require Import ZArith Reals List Lia Lra.
From Verif Require Import FdKernels KissFft FftSpec FftAux FftInverse KissFftProofs.
Import ListNotations.
Local Open Scope Z_scope.
Local Open Scope bool_scope.

(** ** C31 *)
(** The transform of any length in either direction, in a state made for that length: the n values are
    replaced by the discrete Fourier transform and nothing else is written. *)
Theorem C31_transform n sign x : 1 <= n -> sign = 1 \/ sign = -1 ->
  exists st, kiss_fft_alloc n = Some st /\
  forall k, snd (kiss_fft st x n sign (-1)) k = if (0 <=? k) && (k <? n) then dft n sign x k else x k.
Proof.
  intros Hn Hs. destruct (alloc_ok n Hn) as (st & E & St). exists st. split; [exact E|]. intros k.
  pose proof (kiss_ok st n sign (-1) x Hn Hs (or_intror eq_refl) St) as K. destruct (kiss_fft st x n sign (-1)) as [[st' p'] out]. destruct K as (_ & _ & K1 & K2). cbn [snd].
  destruct (Z.leb_spec 0 k), (Z.ltb_spec k n); cbn; [apply K1|apply K2|apply K2|apply K2]; lia.
Qed.
Print Assumptions C31_transform.

(** Two calls in the same state: the second call, with the opposite sign, gives n times the input. *)
Theorem C31_inverse n sign x : 1 <= n -> sign = 1 \/ sign = -1 ->
  exists st, kiss_fft_alloc n = Some st /\
  let '(st1, prev1, y) := kiss_fft st x n sign (-1) in
  let '(st2, prev2, z) := kiss_fft st1 y n (- sign) prev1 in
  forall k, 0 <= k < n -> z k = scaled (IZR n) (x k).
Proof.
  intros Hn Hs. destruct (alloc_ok n Hn) as (st & E & St). exists st. split; [exact E|].
  pose proof (kiss_ok st n sign (-1) x Hn Hs (or_intror eq_refl) St) as K. destruct (kiss_fft st x n sign (-1)) as [[st1 p1] y]. destruct K as (S1 & -> & K1 & _).
  pose proof (kiss_ok st1 n (- sign) sign y Hn ltac:(lia) Hs S1) as K. destruct (kiss_fft st1 y n (- sign) sign) as [[st2 p2] z]. destruct K as (_ & _ & K2 & _).
  intros k Hk. rewrite K2 by exact Hk. rewrite <- dft_inverse with (s := sign) by (exact Hs || exact Hk).
  unfold dft at 1 3. apply total_ext. intros j Hj. rewrite K1 by lia. reflexivity.
Qed.
Print Assumptions C31_inverse.

(** The factors found for any length: radices whose successive quotients are recorded with them, ending
    with 1, and at most 31 of them for a 32-bit length, so that the 32 pairs of the state suffice. *)
Fixpoint quotients (n : Z) (l : list (Z * Z)) : Prop :=
  match l with [] => n = 1 | (p, m) :: l => n = p * m /\ 1 <= p /\ 1 <= m /\ (l = [] -> m = 1) /\ (l <> [] -> quotients m l) end.
Theorem C31_factors n : 1 <= n < 2 ^ 31 ->
  exists l, kf_factor n = Some l /\ l <> [] /\ quotients n l /\ Z.of_nat (length l) <= 31.
Proof.
  intros Hn. destruct (kf_factor_ok n) as (l & E & Cl & B); [lia|]. exists l. split; [exact E|].
  assert (Q : forall l n, chain n l -> l <> [] /\ quotients n l).
  { clear. induction l as [|[p m] l IH]; intros n H; [destruct H|]. cbn in H. split; [discriminate|]. cbn [quotients].
    destruct H as (H1 & H2 & H3 & H4). split; [exact H3|]. split; [lia|]. split; [lia|]. destruct H4 as [[-> ->]|H4]; [split; [reflexivity|congruence]|]. destruct (IH m H4) as [I1 I2]. split; [congruence|intros _; exact I2]. }
  destruct (Q l n Cl) as [Q1 Q2]. split; [exact Q1|]. split; [exact Q2|].
  destruct B as [[_ ->]|B]; [cbn; lia|]. destruct (Z.le_gt_cases (Z.of_nat (length l)) 31); [assumption|]. assert (2 ^ 32 <= 2 ^ Z.of_nat (length l)) by (apply Z.pow_le_mono_r; lia). lia.
Qed.
Print Assumptions C31_factors.
Example C31_factors_120 : kf_factor 120 = Some [(4, 30); (2, 15); (3, 5); (5, 1)].
Proof. reflexivity. Qed.
Example C31_factors_77 : kf_factor 77 = Some [(7, 11); (11, 1)].
Proof. reflexivity. Qed.

(** a concrete transform: two samples, sum and difference *)
Example C31_nonvacuous : exists st, kiss_fft_alloc 2 = Some st /\
  forall x k, snd (kiss_fft st x 2 1 (-1)) k = if k =? 0 then plus (x 0) (x 1) else if k =? 1 then csub (x 0) (x 1) else x k.
Proof.
  destruct (C31_transform 2 1 (fun _ => c0)) as (st & E & _); [lia|auto|]. exists st. split; [exact E|]. intros x k.
  destruct (C31_transform 2 1 x) as (st' & E' & K); [lia|auto|]. assert (st' = st) by congruence. subst st'. rewrite K.
  destruct (Z.eqb_spec k 0) as [-> |N0]; [|destruct (Z.eqb_spec k 1) as [-> |N1]].
  - change ((0 <=? 0) && (0 <? 2)) with true. unfold dft. change (Z.to_nat 2) with 2%nat. cbn [total]. change (Z.of_nat 0) with 0. change (Z.of_nat 1) with 1. rewrite !Z.mul_0_r, !root_0. rewrite times_cmul, plus_cadd. change (0, 0)%R with c0. ring.
  - change ((0 <=? 1) && (1 <? 2)) with true. unfold dft. change (Z.to_nat 2) with 2%nat. cbn [total]. change (Z.of_nat 0) with 0. change (Z.of_nat 1) with 1. rewrite Z.mul_0_l, Z.mul_1_l, root_0, (root_half 1 2 1) by lia. rewrite times_cmul, plus_cadd. change (0, 0)%R with c0. ring.
  - destruct (Z.leb_spec 0 k), (Z.ltb_spec k 2); cbn; try reflexivity; lia.
Qed.
