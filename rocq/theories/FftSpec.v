(** Specification of the discrete Fourier transform. *)
From Coq Require Import ZArith Reals List.
Local Open Scope R_scope.

(** exp(s 2 pi i k / n) as a pair; s is 1 or -1 *)
Definition root (n s k : Z) : R * R := (cos (2 * PI * IZR k / IZR n), IZR s * sin (2 * PI * IZR k / IZR n)).
Definition times (a b : R * R) : R * R := (fst a * fst b - snd a * snd b, fst a * snd b + snd a * fst b).
Definition plus (a b : R * R) : R * R := (fst a + fst b, snd a + snd b).
Definition scaled (c : R) (a : R * R) : R * R := (c * fst a, c * snd a).
(** sum over i = 0, ..., n-1 *)
Fixpoint total (n : nat) (f : Z -> R * R) : R * R := match n with O => (0, 0) | S n => plus (total n f) (f (Z.of_nat n)) end.
(** the transform with sign s of the n numbers x(0), ..., x(n-1) *)
Definition dft (n s : Z) (x : Z -> R * R) (k : Z) : R * R := total (Z.to_nat n) (fun j => times (x j) (root n s (j * k)%Z)).

(** A spectrum of n/2+1 values c stands for the n values of the transform of a real signal: the second half
    is the complex conjugate of the first, and the values at zero and at n/2 are real. *)
Definition hermitian (n : Z) (c : Z -> R * R) (k : Z) : R * R :=
  (if k =? 0 then (fst (c 0), 0%R) else if 2 * k <? n then c k else if 2 * k =? n then (fst (c k), 0%R) else (fst (c (n - k)), (- snd (c (n - k)%Z))%R))%Z.
Definition real_values (x : Z -> R) : Z -> R * R := fun i => (x i, 0).
