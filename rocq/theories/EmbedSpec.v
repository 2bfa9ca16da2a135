(** Specification of zfp's embedded (group-tested) bit plane code as a list of
    bits, independent of the bit stream and of any bit budget. *)
From Coq Require Import ZArith List Bool Arith.
Import ListNotations.
Local Open Scope Z_scope.

(** bit plane k of an array *)
Definition plane (data : list Z) (k : nat) : list bool :=
  map (fun d => Z.testbit d (Z.of_nat k)) data.

(** Code of the part [l] of a bit plane that is not yet known to be significant.
    Outside a run ([inrun = false]) one bit tells whether any one remains; inside a
    run the zeros up to and including the next one are written, except that a one
    in the last position is implied.  Returns the code and the number of positions
    it accounts for. *)
Fixpoint etail (inrun : bool) (l : list bool) : list bool * nat :=
  match l with
  | [] => ([], 0%nat)
  | x :: r =>
      let body :=
        match r with
        | [] => ([], 1%nat)
        | _ => let '(e, c) := etail (negb x) r in (x :: e, S c)
        end in
      if inrun then body
      else if existsb id l then (true :: fst body, snd body)
      else ([false], 0%nat)
  end.

(** Code of planes k-1, k-2, ..., kmin when the first n values are significant. *)
Fixpoint ecode (k kmin n : nat) (data : list Z) : list bool :=
  match k with
  | O => []
  | S k' =>
      if (kmin <? k)%nat then
        let p := plane data k' in
        let '(e, c) := etail false (skipn n p) in
        firstn n p ++ e ++ ecode k' kmin (n + c) data
      else []
  end.

(** Decoder of the tail of a plane with [r] positions left and budget [b] on the
    input [inp] (missing input reads as zeros): the plane bits it determines, the
    budget left, the input left.  When the budget ends inside a run, the current
    position is taken to be the one. *)
Fixpoint dtail (r : nat) (inrun : bool) (b : nat) (inp : list bool) : list bool * nat * list bool :=
  match r with
  | O => ([], b, inp)
  | S r' =>
      let '(go, b, inp) :=
        if inrun then (true, b, inp)
        else match b with O => (false, b, inp) | S b' => (hd false inp, b', tl inp) end in
      if go then
        if ((r' =? 0) || (b =? 0))%nat then
          let '(l, b, inp) := dtail r' false b inp in (true :: l, b, inp)
        else
          let '(l, b, inp3) := dtail r' (negb (hd false inp)) (b - 1) (tl inp) in (hd false inp :: l, b, inp3)
      else ([], b, inp)
  end.

Definition pad_to (size : nat) (l : list bool) : list bool := l ++ repeat false (size - length l).

(** All planes: returns the planes from high to low, each padded to [size]. *)
Fixpoint dcode (k kmin size n b : nat) (inp : list bool) : list (list bool) * nat * list bool :=
  match k with
  | O => ([], b, inp)
  | S k' =>
      if (negb (b =? 0) && (kmin <? k))%nat then
        let m := Nat.min n b in
        let '(l, b1, inp1) := dtail (size - n) false (b - m) (skipn m inp) in
        let '(ps, b2, inp2) := dcode k' kmin size (n + length l) b1 inp1 in
        (pad_to size (pad_to n (firstn m inp) ++ l) :: ps, b2, inp2)
      else ([], b, inp)
  end.

(** Upper limit for the code of [prec] bit planes of [size] values. *)
Definition full_bits (prec size : nat) : nat := (prec * size + size - 1)%nat.

(** A P-bit value with all but its top [prec] bits cleared. *)
Definition keep_top (P prec : nat) (d : Z) : Z := d - d mod 2 ^ Z.of_nat (P - prec).
