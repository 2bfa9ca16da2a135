(** Model of zfp's floating-point blocks (zfp/src/template/encodef.c, decodef.c, codecf.c,
    traitsf.h, traitsd.h).

    [P] is the width of the scalar: 32 for float, 64 for double.  A finite scalar is
    represented exactly by the integer k = x * 2^U where 2^-U is the smallest positive
    (denormal) number of the type.  Not modelled: NaN and infinite input values, and the
    sign of zero. *)
From Coq Require Import ZArith List Bool Arith.
From Verif Require Import Bitstream ZfpCodec ZfpXform ZfpArray.
Import ListNotations.
Local Open Scope Z_scope.

(** EBITS, traitsf.h:6, traitsd.h:6 *)
Definition EBITS (P : nat) : nat := if (P =? 32)%nat then 8 else 11.
(** digits in the significand of the IEEE type, FLT_MANT_DIG or DBL_MANT_DIG *)
Definition mant (P : nat) : Z := if (P =? 32)%nat then 24 else 53.
(** EBIAS, codec.h:3 *)
Definition EBIAS (P : nat) : Z := 2 ^ (Z.of_nat (EBITS P) - 1) - 1.
(** -U is the exponent of the smallest denormal: 2^-149 and 2^-1074 *)
Definition U (P : nat) : Z := EBIAS P + mant P - 2.

(** the finite values of the type *)
Definition is_scalar (P : nat) (k : Z) : Prop :=
  Z.abs k < 2 ^ (EBIAS P + 1 + U P) /\ exists m j, 0 <= j /\ Z.abs m < 2 ^ mant P /\ k = m * 2 ^ j.

(** round an integer to the nearest one with p significant digits, ties to even: the
    conversion of an integer to a floating-point type, and the rounding of a sum *)
Definition rne (p i : Z) : Z :=
  let a := Z.abs i in
  let e := Z.max 0 (Z.log2 a + 1 - p) in
  let q := a / 2 ^ e in
  let r := a mod 2 ^ e in
  let up := (2 ^ e <? 2 * r) || ((2 ^ e =? 2 * r) && Z.odd q) in
  Z.sgn i * ((if up then q + 1 else q) * 2 ^ e).

Section Float.
Variable W : nat.
Variable P : nat.

(** exponent, encodef.c:7-17: frexp of x > 0 gives the e with 2^(e-1) <= x < 2^e *)
Definition exponent (k : Z) : Z :=
  if 0 <? k then Z.max (Z.log2 k + 1 - U P) (1 - EBIAS P) else - EBIAS P.

(** exponent_block, encodef.c:20-30 *)
Definition exponent_block (b : list Z) : Z :=
  exponent (fold_left (fun mx x => if mx <? Z.abs x then Z.abs x else mx) b 0).

(** precision, codecf.c:3-6; the int difference does not overflow for |minexp| < 2^30 *)
Definition precision (maxexp maxprec minexp : Z) (d : nat) : Z :=
  Z.min maxprec (Z.max 0 (maxexp - minexp + 2 * (Z.of_nat d + 1))).

(** (Int)(s * x) with s = quantize(1, emax), encodef.c:34-50.  s is infinite when its
    exponent exceeds EBIAS; the product is then infinite or NaN and its conversion to Int is
    undefined: None.  Otherwise s * x is exact up to an underflow that the truncation to 0
    makes irrelevant. *)
Definition fwd_cast (emax : Z) (b : list Z) : option (list Z) :=
  if EBIAS P <? Z.of_nat P - 2 - emax then None
  else let a := Z.of_nat P - 2 - emax - U P in
       Some (map (fun k => Z.quot (k * 2 ^ Z.max 0 a) (2 ^ Z.max 0 (- a))) b).

(** (Scalar)(s * i) with s = dequantize(1, emax), decodef.c:7-25.  s is 0 when 2^(emax-(P-2))
    is below the smallest denormal; i is first rounded to the scalar type.  None when a
    value is too large for the type (C gives an infinity). *)
Definition inv_cast (emax : Z) (b : list Z) : option (list Z) :=
  let a := emax - (Z.of_nat P - 2) + U P in
  let r := map (fun i => if a <? 0 then 0 else rne (mant P) i * 2 ^ a) b in
  if forallb (fun k => Z.abs k <? 2 ^ (EBIAS P + 1 + U P)) r then Some r else None.

(** zfp_encode_block, encodef.c:54-82.  minbits - ebits is computed in uint and passed as int. *)
Definition encode_float (d : nat) (s : stream) (minbits maxbits maxprec minexp : Z) (fb : list Z)
  : option (Z * stream) :=
  let emax := exponent_block fb in
  let prec := precision emax maxprec minexp d in
  let e := if prec =? 0 then 0 else emax + EBIAS P in
  if e =? 0 then
    let s := snd (stream_write_bit W s false) in
    if 1 <? minbits then Some (minbits, stream_pad W s (Z.to_nat (minbits - 1))) else Some (1, s)
  else
    let ebits := Z.of_nat (EBITS P) + 1 in
    let s := snd (stream_write_bits W s (2 * e + 1) (Z.to_nat ebits)) in
    ib <- fwd_cast emax fb;
    r <- encode_block W P d s (int32 (minbits - ebits)) (int32 (maxbits - ebits)) prec ib;
    Some (ebits + fst r, snd r).

(** zfp_decode_block, decodef.c:30-59 *)
Definition decode_float (d : nat) (s : stream) (minbits maxbits maxprec minexp : Z)
  : Z * stream * option (list Z) :=
  let '(nonzero, s) := stream_read_bit W s in
  if nonzero : bool then
    let ebits := Z.of_nat (EBITS P) + 1 in
    let '(v, s) := stream_read_bits W s (Z.to_nat (ebits - 1)) in
    let emax := v - EBIAS P in
    let prec := precision emax maxprec minexp d in
    let '(bits, s, ib) := decode_block W P d s (int32 (minbits - ebits)) (int32 (maxbits - ebits)) prec in
    (ebits + bits, s, ib <- ib; inv_cast emax ib)
  else
    if 1 <? minbits then (minbits, stream_skip W s (Z.to_nat (minbits - 1)), Some (repeat 0 (block_size d)))
    else (1, s, Some (repeat 0 (block_size d))).
End Float.
