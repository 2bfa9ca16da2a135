(** What a user of zfp's floating-point modes relies on, stated without the codec.

    A finite float (P = 32) or double (P = 64) is the integer k that counts units of the
    smallest denormal 2^-U of its type: 2^-149 or 2^-1074.  So x = k * 2^-U, and
    |x| < 2^e means |k| < 2^(e+U). *)
From Coq Require Import ZArith List.
From Verif Require Import EmbedSpec BlockSpec.
Import ListNotations.
Local Open Scope Z_scope.

(** exponent of the smallest denormal, largest exponent, significand digits *)
Definition unit_exp (P : nat) : Z := if (P =? 32)%nat then 149 else 1074.
Definition max_exp (P : nat) : Z := if (P =? 32)%nat then 127 else 1023.
Definition exp_bits (P : nat) : nat := if (P =? 32)%nat then 8%nat else 11%nat.

(** |k| counts a value below 2^e *)
Definition below (P : nat) (e k : Z) : Prop := Z.abs k < 2 ^ (e + unit_exp P).

(** no value is infinite *)
Definition finite_values (P : nat) (b : list Z) : Prop := Forall (below P (max_exp P + 1)) b.

(** e is the exponent of the largest value of the block: 2^(e-1) <= max |x| < 2^e *)
Definition largest (P : nat) (e : Z) (b : list Z) : Prop :=
  Forall (below P e) b /\ Exists (fun k => 2 ^ (e - 1 + unit_exp P) <= Z.abs k) b.

(** the absolute tolerance 2^t *)
Definition tolerance (P : nat) (t : Z) : Z := 2 ^ (t + unit_exp P).
Definition within (P : nat) (t : Z) (b b' : list Z) : Prop :=
  Forall2 (fun k k' => Z.abs (k - k') < tolerance P t) b b'.

(** binary digits by which the largest value may exceed the tolerance *)
Definition max_digits (P : nat) : Z := if (P =? 32)%nat then 19 else 48.

(** blocks for which fixed-accuracy mode keeps its promise: all zero; or all far below the
    tolerance; or not too small for the type, at most [max_digits] above the tolerance, and
    not within the tolerance of the next power of two *)
Definition accurate_block (P d : nat) (t : Z) (b : list Z) : Prop :=
  length b = (4 ^ d)%nat /\ finite_values P b /\
  (Forall (fun k => k = 0) b \/
   3 + 2 * Z.of_nat d - max_exp P <= t /\ Forall (below P (t - 2 * (Z.of_nat d + 1))) b \/
   exists e, largest P e b /\ Z.of_nat P - 2 - max_exp P <= e /\ e - t <= max_digits P /\
     Forall (fun k => Z.abs k + tolerance P t <= 2 ^ (e + unit_exp P)) b).

(** blocks any parameters can code: all zero, or not too small for the type *)
Definition codable_block (P d : nat) (b : list Z) : Prop :=
  length b = (4 ^ d)%nat /\ finite_values P b /\
  (Forall (fun k => k = 0) b \/ exists e, largest P e b /\ Z.of_nat P - 2 - max_exp P <= e).
