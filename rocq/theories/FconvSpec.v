(** Specification of the operations of fconv on two traces. *)
From Coq Require Import ZArith Reals.
From Verif Require Import FftSpec.
Local Open Scope R_scope.

Fixpoint sum (n : nat) (f : Z -> R) : R := match n with O => 0 | S n => sum n f + f (Z.of_nat n) end.
(** f(0) + ... + f(n-1) *)
Definition Sum (n : Z) (f : Z -> R) : R := sum (Z.to_nat n) f.
(** Trace i of a gather with nsam samples per trace, extended with zeroes *)
Definition padded (data : Z -> R) (nsam i t : Z) : R := if (t <? nsam)%Z then data (i * nsam + t)%Z else 0.
(** Periodic convolution and correlation of traces with period n *)
Definition convolution (n : Z) (a b : Z -> R) (t : Z) : R := Sum n (fun j => a j * b ((t - j) mod n)%Z).
Definition correlation (n : Z) (a b : Z -> R) (t : Z) : R := Sum n (fun j => a ((j + t) mod n)%Z * b j).
(** Convolution of two signals that start at time zero, and their correlation at lag t, without wrap-around *)
Definition true_convolution (a b : Z -> R) (t : Z) : R := Sum (t + 1) (fun j => a j * b (t - j)%Z).
Definition true_correlation (n : Z) (a b : Z -> R) (t : Z) : R := Sum n (fun j => (if (0 <=? j + t)%Z then a (j + t)%Z else 0) * b j).
(** Discrete Fourier transform of a real trace, and the squared modulus *)
Definition spectrum (n : Z) (a : Z -> R) : Z -> R * R := dft n (-1) (real_values a).
Definition conjugate (z : R * R) : R * R := (fst z, - snd z).
Definition energy (z : R * R) : R := fst z * fst z + snd z * snd z.
(** m is the largest of the values f(i, k), i < nrec, k <= n/2, of which none is negative *)
Definition is_largest (m : R) (f : Z -> Z -> R) (nrec n : Z) : Prop :=
  (forall i k, (0 <= i < nrec)%Z -> (0 <= k <= n / 2)%Z -> f i k <= m) /\ (exists i k, (0 <= i < nrec)%Z /\ (0 <= k <= n / 2)%Z /\ f i k = m).
(** The factor of the cross-spectrum at amplitude d, where m is the largest amplitude of the trace *)
Definition whitening (epsmax eps reps m d : R) : R :=
  if Rlt_dec (epsmax * m) d then (/ d)%R else if Req_EM_T d 0 then 1%R else (/ (d + (reps * m + eps)))%R.
(** Sample j of trace i of a gather of nx traces with nt samples, as it is used: zero behind the end of the trace,
    the last trace is repeated, the samples multiplied by exp(alpha t). *)
Definition prepared (dt alpha : R) (nt nx : Z) (val : Z -> R) (i j : Z) : R :=
  if (j <? nt)%Z then val (Z.min i (nx - 1) * nt + j)%Z * exp (alpha * IZR j * dt) else 0.
