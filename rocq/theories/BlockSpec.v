(** Specification vocabulary for zfp blocks, independent of the code model. *)
From Coq Require Import ZArith List Bool Arith.
Import ListNotations.
Local Open Scope Z_scope.

(** value of the negabinary (base -2) numeral whose n digits are the low bits of u *)
Fixpoint negaval (n : nat) (u : Z) : Z :=
  match n with
  | O => 0
  | S m => Z.b2z (Z.odd u) - 2 * negaval m (u / 2)
  end.

(** largest magnitude that leaves two guard bits in a P-bit integer *)
Definition guard_max (P : nat) : Z := 2 ^ (Z.of_nat P - 2) - 1.

(** all values of a block at most B in magnitude *)
Definition bounded (B : Z) (b : list Z) : Prop := Forall (fun v => Z.abs v <= B) b.
(** two blocks of the same length that differ by at most E everywhere *)
Definition close (E : Z) (a b : list Z) : Prop := Forall2 (fun x y => Z.abs (x - y) <= E) a b.

(** the four values at positions off, off+s, off+2s, off+3s *)
Definition line (b : list Z) (off s : nat) : Z * Z * Z * Z :=
  (nth off b 0, nth (off + s) b 0, nth (off + 2 * s) b 0, nth (off + 3 * s) b 0).

(** c is b with the 4-point map f applied to every line along the given axis
    (axis 0 varies fastest) of a 4^d block *)
Definition along (f : Z * Z * Z * Z -> option (Z * Z * Z * Z)) (d axis : nat) (b c : list Z) : Prop :=
  length b = (4 ^ d)%nat /\ length c = (4 ^ d)%nat /\
  forall off, (off < 4 ^ d)%nat -> (off / 4 ^ axis mod 4 = 0)%nat ->
    f (line b off (4 ^ axis)) = Some (line c off (4 ^ axis)).

(** f applied along each listed axis in turn *)
Fixpoint along_all (f : Z * Z * Z * Z -> option (Z * Z * Z * Z)) (d : nat) (axes : list nat) (b c : list Z) : Prop :=
  match axes with
  | [] => b = c
  | a :: r => exists m, along f d a b m /\ along_all f d r m c
  end.

(** coordinates of a position in a block of dimension d and the total degree of the basis
    function it stands for *)
Fixpoint total_degree (d i : nat) : nat :=
  match d with O => O | S e => (i mod 4 + total_degree e (i / 4))%nat end.
Fixpoint total_squares (d i : nat) : nat :=
  match d with O => O | S e => ((i mod 4) * (i mod 4) + total_squares e (i / 4))%nat end.

(** An inverse pass along one axis multiplies an error of the coefficients by at most 15/4
    (the largest row sum of the inverse matrix) and adds at most 13/4 of rounding. *)
Definition growth1 (E : Z) : Z := (15 * E + 13) / 4.
Fixpoint growth (d : nat) (E : Z) : Z := match d with O => E | S m => growth1 (growth m E) end.

(** error of inverse after forward transform on exact coefficients in d dimensions *)
Definition roundoff (d : nat) : Z := match d with 1%nat => 2 | 2%nat => 10 | 3%nat => 40 | _ => 153 end.
(** what the block values have to keep away from the guard-bit limit for that *)
Definition headroom (d : nat) : Z := match d with 1%nat => 0 | 2%nat => 5 | 3%nat => 21 | _ => 81 end.
