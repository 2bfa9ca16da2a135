(** Model of zfp's block transform: lifting, negabinary, coefficient order, and the
    integer block coder (zfp/src/template/encode.c, decode.c, encode1-4.c, decode1-4.c,
    codec1-4.c, encodei.c, decodei.c).

    [P] is the width of [Int] (32 or 64).  Signed arithmetic is checked: a result outside
    the type gives [None].  Simplification: [>>] of a negative number is the arithmetic
    shift (implementation defined in C) and [<<] of a negative number is doubling (strictly
    undefined in C99, but what every compiler does). *)
From Coq Require Import ZArith List Bool Arith.
From Verif Require Import Bitstream ZfpCodec.
Import ListNotations.
Local Open Scope Z_scope.

Definition bind {A B} (o : option A) (f : A -> option B) : option B :=
  match o with Some a => f a | None => None end.
Notation "x <- e ; f" := (bind e (fun x => f)) (at level 61, e at next level, right associativity).

Section Xform.
Variable P : nat.

(** a value of type Int *)
Definition chkint (v : Z) : option Z :=
  if (- 2 ^ (Z.of_nat P - 1) <=? v) && (v <? 2 ^ (Z.of_nat P - 1)) then Some v else None.

(** fwd_lift, encode.c:46-50 *)
Definition fwd_lift (v : Z * Z * Z * Z) : option (Z * Z * Z * Z) :=
  let '(x, y, z, w) := v in
  x <- chkint (x + w); let x := Z.shiftr x 1 in w <- chkint (w - x);
  z <- chkint (z + y); let z := Z.shiftr z 1 in y <- chkint (y - z);
  x <- chkint (x + z); let x := Z.shiftr x 1 in z <- chkint (z - x);
  w <- chkint (w + y); let w := Z.shiftr w 1 in y <- chkint (y - w);
  w <- chkint (w + Z.shiftr y 1); y <- chkint (y - Z.shiftr w 1);
  Some (x, y, z, w).

(** inv_lift, decode.c:24-28 *)
Definition inv_lift (v : Z * Z * Z * Z) : option (Z * Z * Z * Z) :=
  let '(x, y, z, w) := v in
  y <- chkint (y + Z.shiftr w 1); w <- chkint (w - Z.shiftr y 1);
  y <- chkint (y + w); w <- chkint (2 * w); w <- chkint (w - y);
  z <- chkint (z + x); x <- chkint (2 * x); x <- chkint (x - z);
  y <- chkint (y + z); z <- chkint (2 * z); z <- chkint (z - y);
  w <- chkint (w + x); x <- chkint (2 * x); x <- chkint (x - w);
  Some (x, y, z, w).

(** encode.c:34-37, 52-55 and decode.c:14-17, 30-33: load a 4-vector with stride s from
    position off, transform it, store it back; None outside the block *)
Definition lift_at (f : Z * Z * Z * Z -> option (Z * Z * Z * Z)) (line : nat * nat) (b : list Z)
  : option (list Z) :=
  let '(off, s) := line in
  x <- nth_error b off;
  y <- nth_error b (off + s);
  z <- nth_error b (off + 2 * s);
  w <- nth_error b (off + 3 * s);
  r <- f (x, y, z, w);
  let '(x, y, z, w) := r in
  Some (upd (upd (upd (upd b (off + 3 * s) w) (off + 2 * s) z) (off + s) y) off x).

Fixpoint lift_lines (f : Z * Z * Z * Z -> option (Z * Z * Z * Z)) (lines : list (nat * nat)) (b : list Z)
  : option (list Z) :=
  match lines with
  | [] => Some b
  | l :: r => b <- lift_at f l b; lift_lines f r b
  end.

(** all combinations, first loop outermost *)
Definition loop2 {A} (f : nat -> nat -> A) : list A :=
  flat_map (fun a => map (f a) [0; 1; 2; 3]%nat) [0; 1; 2; 3]%nat.
Definition loop3 {A} (f : nat -> nat -> nat -> A) : list A :=
  flat_map (fun a => loop2 (f a)) [0; 1; 2; 3]%nat.

(** fwd_xform_1, encode1.c:24-28 *)
Definition fwd_xform1 (b : list Z) : option (list Z) :=
  lift_lines fwd_lift [(0, 1)]%nat b.

(** fwd_xform_2, encode2.c:29-38 *)
Definition fwd_xform2 (b : list Z) : option (list Z) :=
  b <- lift_lines fwd_lift (map (fun y => (4 * y, 1))%nat [0; 1; 2; 3]%nat) b;
  lift_lines fwd_lift (map (fun x => (1 * x, 4))%nat [0; 1; 2; 3]%nat) b.

(** fwd_xform_3, encode3.c:35-50 *)
Definition fwd_xform3 (b : list Z) : option (list Z) :=
  b <- lift_lines fwd_lift (loop2 (fun z y => (4 * y + 16 * z, 1)%nat)) b;
  b <- lift_lines fwd_lift (loop2 (fun x z => (16 * z + 1 * x, 4)%nat)) b;
  lift_lines fwd_lift (loop2 (fun y x => (1 * x + 4 * y, 16)%nat)) b.

(** fwd_xform_4, encode4.c:42-65 *)
Definition fwd_xform4 (b : list Z) : option (list Z) :=
  b <- lift_lines fwd_lift (loop3 (fun w z y => (4 * y + 16 * z + 64 * w, 1)%nat)) b;
  b <- lift_lines fwd_lift (loop3 (fun x w z => (16 * z + 64 * w + 1 * x, 4)%nat)) b;
  b <- lift_lines fwd_lift (loop3 (fun y x w => (64 * w + 1 * x + 4 * y, 16)%nat)) b;
  lift_lines fwd_lift (loop3 (fun z y x => (1 * x + 4 * y + 16 * z, 64)%nat)) b.

(** inv_xform_1, decode1.c:23-27 *)
Definition inv_xform1 (b : list Z) : option (list Z) :=
  lift_lines inv_lift [(0, 1)]%nat b.

(** inv_xform_2, decode2.c:25-34 *)
Definition inv_xform2 (b : list Z) : option (list Z) :=
  b <- lift_lines inv_lift (map (fun x => (1 * x, 4))%nat [0; 1; 2; 3]%nat) b;
  lift_lines inv_lift (map (fun y => (4 * y, 1))%nat [0; 1; 2; 3]%nat) b.

(** inv_xform_3, decode3.c:27-42 *)
Definition inv_xform3 (b : list Z) : option (list Z) :=
  b <- lift_lines inv_lift (loop2 (fun y x => (1 * x + 4 * y, 16)%nat)) b;
  b <- lift_lines inv_lift (loop2 (fun x z => (16 * z + 1 * x, 4)%nat)) b;
  lift_lines inv_lift (loop2 (fun z y => (4 * y + 16 * z, 1)%nat)) b.

(** inv_xform_4, decode4.c:29-52 *)
Definition inv_xform4 (b : list Z) : option (list Z) :=
  b <- lift_lines inv_lift (loop3 (fun z y x => (1 * x + 4 * y + 16 * z, 64)%nat)) b;
  b <- lift_lines inv_lift (loop3 (fun y x w => (64 * w + 1 * x + 4 * y, 16)%nat)) b;
  b <- lift_lines inv_lift (loop3 (fun x w z => (16 * z + 64 * w + 1 * x, 4)%nat)) b;
  lift_lines inv_lift (loop3 (fun w z y => (4 * y + 16 * z + 64 * w, 1)%nat)) b.

(** the instantiation for DIMS = d (None for a dimension that does not exist) *)
Definition fwd_xform (d : nat) (b : list Z) : option (list Z) :=
  match d with
  | 1 => fwd_xform1 b | 2 => fwd_xform2 b | 3 => fwd_xform3 b | 4 => fwd_xform4 b
  | _ => None
  end%nat.
Definition inv_xform (d : nat) (b : list Z) : option (list Z) :=
  match d with
  | 1 => inv_xform1 b | 2 => inv_xform2 b | 3 => inv_xform3 b | 4 => inv_xform4 b
  | _ => None
  end%nat.

(** NBMASK, traitsf.h:7, traitsd.h:7: the word 1010...10 *)
Fixpoint alternating (n : nat) : Z :=
  match n with O => 0 | S k => 2 + 4 * alternating k end.
Definition NBMASK : Z := alternating (P / 2).

(** conversion of a P-bit pattern to Int *)
Definition to_int (u : Z) : Z := if u <? 2 ^ (Z.of_nat P - 1) then u else u - 2 ^ Z.of_nat P.

(** int2uint, encode.c:58-63 *)
Definition int2uint (x : Z) : Z := Z.lxor (uintP P (uintP P x + NBMASK)) NBMASK.
(** uint2int, decode.c:36-41 *)
Definition uint2int (u : Z) : Z := to_int (uintP P (Z.lxor u NBMASK - NBMASK)).

(** fwd_order, encode.c:65-72 *)
Definition fwd_order (iblock : list Z) (perm : list nat) : option (list Z) :=
  fold_right (fun p r => v <- nth_error iblock p; r <- r; Some (int2uint v :: r)) (Some []) perm.

(** inv_order, decode.c:43-50 *)
Fixpoint inv_order (ublock : list Z) (perm : list nat) (iblock : list Z) : option (list Z) :=
  match ublock, perm with
  | u :: us, p :: ps => if (p <? length iblock)%nat then inv_order us ps (upd iblock p (uint2int u)) else None
  | [], [] => Some iblock
  | _, _ => None
  end.

End Xform.

(** codec2.c:1, codec3.c:1, codec4.c:1 *)
Definition ix2 (i j : nat) : nat := (i + 4 * j)%nat.
Definition ix3 (i j k : nat) : nat := (i + 4 * (j + 4 * k))%nat.
Definition ix4 (i j k l : nat) : nat := (i + 4 * (j + 4 * (k + 4 * l)))%nat.

(** codec1.c:2-4 *)
Definition perm1 : list nat := [0; 1; 2; 3]%nat.
(** codec2.c:4-30 *)
Definition perm2 : list nat := [
    ix2 0 0; ix2 1 0; ix2 0 1; ix2 1 1; ix2 2 0; ix2 0 2; ix2 2 1; ix2 1 2; ix2 3 0; ix2 0 3;
    ix2 2 2; ix2 3 1; ix2 1 3; ix2 3 2; ix2 2 3; ix2 3 3 ]%nat.
(** codec3.c:4-88 *)
Definition perm3 : list nat := [
    ix3 0 0 0; ix3 1 0 0; ix3 0 1 0; ix3 0 0 1; ix3 0 1 1; ix3 1 0 1; ix3 1 1 0; ix3 2 0 0;
    ix3 0 2 0; ix3 0 0 2; ix3 1 1 1; ix3 2 1 0; ix3 2 0 1; ix3 0 2 1; ix3 1 2 0; ix3 1 0 2;
    ix3 0 1 2; ix3 3 0 0; ix3 0 3 0; ix3 0 0 3; ix3 2 1 1; ix3 1 2 1; ix3 1 1 2; ix3 0 2 2;
    ix3 2 0 2; ix3 2 2 0; ix3 3 1 0; ix3 3 0 1; ix3 0 3 1; ix3 1 3 0; ix3 1 0 3; ix3 0 1 3;
    ix3 1 2 2; ix3 2 1 2; ix3 2 2 1; ix3 3 1 1; ix3 1 3 1; ix3 1 1 3; ix3 3 2 0; ix3 3 0 2;
    ix3 0 3 2; ix3 2 3 0; ix3 2 0 3; ix3 0 2 3; ix3 2 2 2; ix3 3 2 1; ix3 3 1 2; ix3 1 3 2;
    ix3 2 3 1; ix3 2 1 3; ix3 1 2 3; ix3 0 3 3; ix3 3 0 3; ix3 3 3 0; ix3 3 2 2; ix3 2 3 2;
    ix3 2 2 3; ix3 1 3 3; ix3 3 1 3; ix3 3 3 1; ix3 2 3 3; ix3 3 2 3; ix3 3 3 2; ix3 3 3 3 ]%nat.
(** codec4.c:4-295 *)
Definition perm4 : list nat := [
    ix4 0 0 0 0; ix4 1 0 0 0; ix4 0 1 0 0; ix4 0 0 1 0; ix4 0 0 0 1; ix4 1 1 0 0; ix4 0 0 1 1;
    ix4 1 0 1 0; ix4 0 1 0 1; ix4 1 0 0 1; ix4 0 1 1 0; ix4 2 0 0 0; ix4 0 2 0 0; ix4 0 0 2 0;
    ix4 0 0 0 2; ix4 0 1 1 1; ix4 1 0 1 1; ix4 1 1 0 1; ix4 1 1 1 0; ix4 2 1 0 0; ix4 2 0 1 0;
    ix4 2 0 0 1; ix4 0 2 1 0; ix4 0 2 0 1; ix4 1 2 0 0; ix4 0 0 2 1; ix4 1 0 2 0; ix4 0 1 2 0;
    ix4 1 0 0 2; ix4 0 1 0 2; ix4 0 0 1 2; ix4 3 0 0 0; ix4 0 3 0 0; ix4 0 0 3 0; ix4 0 0 0 3;
    ix4 1 1 1 1; ix4 2 0 1 1; ix4 2 1 0 1; ix4 2 1 1 0; ix4 1 2 0 1; ix4 1 2 1 0; ix4 0 2 1 1;
    ix4 1 1 2 0; ix4 0 1 2 1; ix4 1 0 2 1; ix4 0 1 1 2; ix4 1 0 1 2; ix4 1 1 0 2; ix4 2 2 0 0;
    ix4 0 0 2 2; ix4 2 0 2 0; ix4 0 2 0 2; ix4 2 0 0 2; ix4 0 2 2 0; ix4 3 1 0 0; ix4 3 0 1 0;
    ix4 3 0 0 1; ix4 0 3 1 0; ix4 0 3 0 1; ix4 1 3 0 0; ix4 0 0 3 1; ix4 1 0 3 0; ix4 0 1 3 0;
    ix4 1 0 0 3; ix4 0 1 0 3; ix4 0 0 1 3; ix4 2 1 1 1; ix4 1 2 1 1; ix4 1 1 2 1; ix4 1 1 1 2;
    ix4 1 0 2 2; ix4 1 2 0 2; ix4 1 2 2 0; ix4 2 1 0 2; ix4 2 1 2 0; ix4 0 1 2 2; ix4 2 2 1 0;
    ix4 0 2 1 2; ix4 2 0 1 2; ix4 0 2 2 1; ix4 2 0 2 1; ix4 2 2 0 1; ix4 3 0 1 1; ix4 3 1 0 1;
    ix4 3 1 1 0; ix4 1 3 0 1; ix4 1 3 1 0; ix4 0 3 1 1; ix4 1 1 3 0; ix4 0 1 3 1; ix4 1 0 3 1;
    ix4 0 1 1 3; ix4 1 0 1 3; ix4 1 1 0 3; ix4 3 2 0 0; ix4 3 0 2 0; ix4 3 0 0 2; ix4 0 3 2 0;
    ix4 0 3 0 2; ix4 2 3 0 0; ix4 0 0 3 2; ix4 2 0 3 0; ix4 0 2 3 0; ix4 2 0 0 3; ix4 0 2 0 3;
    ix4 0 0 2 3; ix4 2 2 1 1; ix4 1 1 2 2; ix4 2 1 2 1; ix4 1 2 1 2; ix4 2 1 1 2; ix4 1 2 2 1;
    ix4 0 2 2 2; ix4 2 0 2 2; ix4 2 2 0 2; ix4 2 2 2 0; ix4 3 1 1 1; ix4 1 3 1 1; ix4 1 1 3 1;
    ix4 1 1 1 3; ix4 3 2 1 0; ix4 3 2 0 1; ix4 3 0 2 1; ix4 3 1 2 0; ix4 3 1 0 2; ix4 3 0 1 2;
    ix4 0 3 2 1; ix4 1 3 2 0; ix4 1 3 0 2; ix4 0 3 1 2; ix4 2 3 1 0; ix4 2 3 0 1; ix4 1 0 3 2;
    ix4 0 1 3 2; ix4 2 1 3 0; ix4 2 0 3 1; ix4 0 2 3 1; ix4 1 2 3 0; ix4 2 1 0 3; ix4 2 0 1 3;
    ix4 0 2 1 3; ix4 1 2 0 3; ix4 1 0 2 3; ix4 0 1 2 3; ix4 3 3 0 0; ix4 0 0 3 3; ix4 3 0 3 0;
    ix4 0 3 0 3; ix4 3 0 0 3; ix4 0 3 3 0; ix4 1 2 2 2; ix4 2 1 2 2; ix4 2 2 1 2; ix4 2 2 2 1;
    ix4 3 2 1 1; ix4 3 1 2 1; ix4 3 1 1 2; ix4 1 3 2 1; ix4 1 3 1 2; ix4 2 3 1 1; ix4 1 1 3 2;
    ix4 2 1 3 1; ix4 1 2 3 1; ix4 2 1 1 3; ix4 1 2 1 3; ix4 1 1 2 3; ix4 3 0 2 2; ix4 3 2 0 2;
    ix4 3 2 2 0; ix4 2 3 0 2; ix4 2 3 2 0; ix4 0 3 2 2; ix4 2 2 3 0; ix4 0 2 3 2; ix4 2 0 3 2;
    ix4 0 2 2 3; ix4 2 0 2 3; ix4 2 2 0 3; ix4 1 0 3 3; ix4 1 3 0 3; ix4 1 3 3 0; ix4 3 1 0 3;
    ix4 3 1 3 0; ix4 0 1 3 3; ix4 3 3 1 0; ix4 0 3 1 3; ix4 3 0 1 3; ix4 0 3 3 1; ix4 3 0 3 1;
    ix4 3 3 0 1; ix4 2 2 2 2; ix4 3 1 2 2; ix4 3 2 1 2; ix4 3 2 2 1; ix4 2 3 1 2; ix4 2 3 2 1;
    ix4 1 3 2 2; ix4 2 2 3 1; ix4 1 2 3 2; ix4 2 1 3 2; ix4 1 2 2 3; ix4 2 1 2 3; ix4 2 2 1 3;
    ix4 3 3 1 1; ix4 1 1 3 3; ix4 3 1 3 1; ix4 1 3 1 3; ix4 3 1 1 3; ix4 1 3 3 1; ix4 2 0 3 3;
    ix4 2 3 0 3; ix4 2 3 3 0; ix4 3 2 0 3; ix4 3 2 3 0; ix4 0 2 3 3; ix4 3 3 2 0; ix4 0 3 2 3;
    ix4 3 0 2 3; ix4 0 3 3 2; ix4 3 0 3 2; ix4 3 3 0 2; ix4 3 2 2 2; ix4 2 3 2 2; ix4 2 2 3 2;
    ix4 2 2 2 3; ix4 2 1 3 3; ix4 2 3 1 3; ix4 2 3 3 1; ix4 3 2 1 3; ix4 3 2 3 1; ix4 1 2 3 3;
    ix4 3 3 2 1; ix4 1 3 2 3; ix4 3 1 2 3; ix4 1 3 3 2; ix4 3 1 3 2; ix4 3 3 1 2; ix4 0 3 3 3;
    ix4 3 0 3 3; ix4 3 3 0 3; ix4 3 3 3 0; ix4 3 3 2 2; ix4 2 2 3 3; ix4 3 2 3 2; ix4 2 3 2 3;
    ix4 3 2 2 3; ix4 2 3 3 2; ix4 1 3 3 3; ix4 3 1 3 3; ix4 3 3 1 3; ix4 3 3 3 1; ix4 2 3 3 3;
    ix4 3 2 3 3; ix4 3 3 2 3; ix4 3 3 3 2; ix4 3 3 3 3 ]%nat.

(** PERM, codec.h:1 *)
Definition perm_of (d : nat) : list nat :=
  match d with 1 => perm1 | 2 => perm2 | 3 => perm3 | 4 => perm4 | _ => [] end%nat.
(** BLOCK_SIZE, codec.h:2 *)
Definition block_size (d : nat) : nat := (4 ^ d)%nat.

Section Block.
Variable W : nat.
Variable P : nat.

(** conversion of an int argument to uint *)
Definition uint_of_int (v : Z) : nat := Z.to_nat (v mod 2 ^ 32).

(** encode_block, encode.c:138-159: returns the number of bits and the stream; None when
    the transform overflows.  [bits], an int, is the uint returned by the coder. *)
Definition encode_block (d : nat) (s : stream) (minbits maxbits maxprec : Z) (iblock : list Z)
  : option (Z * stream) :=
  iblock <- fwd_xform P d iblock;
  ublock <- fwd_order P iblock (perm_of d);
  let '(bits, s) :=
    if (block_size d <=? 64)%nat
    then encode_ints W P s (uint_of_int maxbits) (uint_of_int maxprec) ublock
    else encode_many_ints W P s (uint_of_int maxbits) (uint_of_int maxprec) ublock in
  if Z.of_nat bits <? minbits
  then Some (minbits, stream_pad W s (Z.to_nat (minbits - Z.of_nat bits)))
  else Some (Z.of_nat bits, s).

(** decode_block, decode.c:120-141; the result block is None when the inverse transform
    overflows.  The uninitialised iblock that inv_order fills completely is zero here. *)
Definition decode_block (d : nat) (s : stream) (minbits maxbits maxprec : Z)
  : Z * stream * option (list Z) :=
  let '(bits, ublock, s) :=
    if (block_size d <=? 64)%nat
    then decode_ints W P s (uint_of_int maxbits) (uint_of_int maxprec) (block_size d)
    else decode_many_ints W P s (uint_of_int maxbits) (uint_of_int maxprec) (block_size d) in
  let '(bits, s) :=
    if Z.of_nat bits <? minbits
    then (minbits, stream_skip W s (Z.to_nat (minbits - Z.of_nat bits)))
    else (Z.of_nat bits, s) in
  (bits, s, iblock <- inv_order P ublock (perm_of d) (repeat 0 (block_size d)); inv_xform P d iblock).

End Block.
