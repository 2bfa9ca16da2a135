(** Specification vocabulary for zfp arrays: coordinates, addresses and padded blocks,
    independent of the code model.  Axes are listed with the fastest varying one first. *)
From Coq Require Import ZArith List Bool Arith.
Import ListNotations.
Local Open Scope Z_scope.

(** mixed-radix digits of k, least significant first *)
Fixpoint digits (ns : list nat) (k : nat) : list nat :=
  match ns with [] => [] | n :: r => (k mod n)%nat :: digits r (k / n)%nat end.
(** the number with the given digits *)
Fixpoint number (ns cs : list nat) : nat :=
  match ns, cs with n :: r, c :: t => (c + n * number r t)%nat | _, _ => 0%nat end.

(** cs is a coordinate vector of an array of size ns *)
Definition inside (cs ns : list nat) : Prop := Forall2 lt cs ns.

(** where the element with coordinates cs is stored *)
Fixpoint addr (base : Z) (ss : list Z) (cs : list nat) : Z :=
  match ss, cs with s :: r, c :: t => addr (base + s * Z.of_nat c) r t | _, _ => base end.

(** a row of n <= 4 values a b c is padded to a a a a, a b b a, a b c a *)
Definition pad4 (n i : nat) : nat := if (i <? n)%nat then i else if (i =? 3)%nat then 0%nat else (n - 1)%nat.

Definition map3 {A B C D} (f : A -> B -> C -> D) (la : list A) (lb : list B) (lc : list C) : list D :=
  map (fun '(a, (b, c)) => f a b c) (combine la (combine lb lc)).
Definition map2 {A B C} (f : A -> B -> C) (la : list A) (lb : list B) : list C :=
  map (fun '(a, b) => f a b) (combine la lb).

(** number of blocks along an axis *)
Definition blocks_along (n : nat) : nat := ((n + 3) / 4)%nat.
(** number of blocks of an array *)
Definition blocks_in (ns : list nat) : nat := fold_right Nat.mul 1%nat (map blocks_along ns).

(** coordinates of block number b, counted in blocks *)
Definition block_at (ns : list nat) (b : nat) : list nat := digits (map blocks_along ns) b.
(** coordinates of position i of a 4^d block *)
Definition position (d i : nat) : list nat := digits (repeat 4%nat d) i.

(** the array element that position i of block b holds: itself, or the one that pads it *)
Definition cell (ns : list nat) (b i : nat) : list nat :=
  map3 (fun n k x => (4 * k + pad4 (Nat.min (n - 4 * k) 4) x)%nat) ns (block_at ns b) (position (length ns) i).

(** the block and the position in it of an array element *)
Definition block_of (ns cs : list nat) : nat := number (map blocks_along ns) (map (fun c => c / 4)%nat cs).
Definition place_of (cs : list nat) : nat := number (repeat 4%nat (length cs)) (map (fun c => c mod 4)%nat cs).

(** value at an address *)
Definition at_addr {A} (zero : A) (m : list A) (a : Z) : A := nth (Z.to_nat a) m zero.

(** every array element lies in the memory *)
Definition fits {A} (m : list A) (base : Z) (ns : list nat) (ss : list Z) : Prop :=
  forall cs, inside cs ns -> 0 <= addr base ss cs < Z.of_nat (length m).
(** different elements have different addresses *)
Definition no_overlap (base : Z) (ns : list nat) (ss : list Z) : Prop :=
  forall cs ds, inside cs ns -> inside ds ns -> addr base ss cs = addr base ss ds -> cs = ds.

(** block number b of an array *)
Definition array_block {A} (zero : A) (m : list A) (base : Z) (ns : list nat) (ss : list Z) (b : nat) : list A :=
  map (fun i => at_addr zero m (addr base ss (cell ns b i))) (seq 0 (4 ^ length ns)).
