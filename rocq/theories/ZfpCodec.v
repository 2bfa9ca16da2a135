(** Model of the zfp embedded coder: zfp/src/template/encode.c and decode.c.

    [W] is the stream word size, [P] the number of bits of [UInt] ([intprec],
    32 or 64).  C's [for (; c1 && c2 && (d--, write()); post) body] loops are
    recursive functions with fuel; running out of fuel sets [fault] on the
    stream (it never happens, see ZfpCodecProofs.v). *)
From Coq Require Import ZArith List Bool Arith.
From Verif Require Import Bitstream.
Import ListNotations.
Local Open Scope Z_scope.

Section Codec.
Variable W : nat.
Variable P : nat.

(** conversion to UInt *)
Definition uintP (v : Z) : Z := v mod 2 ^ Z.of_nat P.

(** encode.c:89-91: extract bit plane k of data to x *)
Fixpoint extract_from (i : nat) (x : Z) (data : list Z) (k : nat) : Z :=
  match data with
  | [] => x
  | d :: r =>
      extract_from (S i)
        (u64 (x + u64 (Z.shiftl (Z.land (Z.shiftr d (Z.of_nat k)) 1) (Z.of_nat i)))) r k
  end.
Definition extract_plane (data : list Z) (k : nat) : Z := extract_from 0 0 data k.

(** encode.c:98: inner loop
    [for (; n < size - 1 && bits && (bits--, !stream_write_bit(&s, x & 1u)); x >>= 1, n++);] *)
Fixpoint enc_inner (fuel size n bits : nat) (x : Z) (s : stream) : nat * nat * Z * stream :=
  match fuel with
  | O => (n, bits, x, chk false s)
  | S f =>
      if ((n <? size - 1) && negb (bits =? 0))%nat then
        let '(b, s) := stream_write_bit W s (Z.odd x) in
        if b then (n, bits - 1, x, s)%nat
        else enc_inner f size (S n) (bits - 1) (Z.shiftr x 1) s
      else (n, bits, x, s)
  end.

(** encode.c:97: outer loop
    [for (; n < size && bits && (bits--, stream_write_bit(&s, !!x)); x >>= 1, n++) inner] *)
Fixpoint enc_outer (fuel size n bits : nat) (x : Z) (s : stream) : nat * nat * stream :=
  match fuel with
  | O => (n, bits, chk false s)
  | S f =>
      if ((n <? size) && negb (bits =? 0))%nat then
        let '(b, s) := stream_write_bit W s (negb (x =? 0)) in
        if b then
          let '(n, bits, x, s) := enc_inner (S size) size n (bits - 1) x s in
          enc_outer f size (S n) bits (Z.shiftr x 1) s
        else (n, bits - 1, s)%nat
      else (n, bits, s)
  end.

(** encode.c:87-100: the loop over bit planes, [k] counts down to [kmin] *)
Fixpoint enc_planes (k kmin size n bits : nat) (data : list Z) (s : stream) : nat * stream :=
  match k with
  | O => (bits, s)
  | S k' =>
      if (negb (bits =? 0) && (kmin <? k))%nat then
        let x := extract_plane data k' in
        let m := Nat.min n bits in
        let '(x, s) := stream_write_bits W s x m in
        let '(n, bits, s) := enc_outer (S size) size n (bits - m) x s in
        enc_planes k' kmin size n bits data s
      else (bits, s)
  end.

(** kmin of encode.c:81, decode.c:59 *)
Definition kmin_of (maxprec : nat) : nat := if (maxprec <? P)%nat then P - maxprec else 0.

(** encode_ints, encode.c:75-104 ([size] is the length of [data]) *)
Definition encode_ints (s : stream) (maxbits maxprec : nat) (data : list Z) : nat * stream :=
  let '(bits, s) := enc_planes P (kmin_of maxprec) (length data) 0 maxbits data s in
  ((maxbits - bits)%nat, s).

(** encode.c:122-123: write bits 0..m-1 of plane k *)
Fixpoint many_write (data : list Z) (m k : nat) (s : stream) : stream :=
  match m, data with
  | O, _ => s
  | S m', [] => chk false s
  | S m', d :: r =>
      let '(_, s) := stream_write_bit W s (Z.odd (Z.shiftr d (Z.of_nat k))) in
      many_write r m' k s
  end.

(** encode.c:125-127: count ones in plane k from position m on *)
Definition many_count (data : list Z) (m k : nat) : nat :=
  fold_left (fun c d => (c + Z.to_nat (Z.land (Z.shiftr d (Z.of_nat k)) 1))%nat) (skipn m data) 0%nat.

(** bit k of data[i]; reading outside the array yields None *)
Definition data_bit (data : list Z) (i k : nat) : option bool :=
  option_map (fun d => Z.odd (Z.shiftr d (Z.of_nat k))) (nth_error data i).

(** encode.c:130 *)
Fixpoint many_inner (fuel size n bits k : nat) (data : list Z) (s : stream) : nat * nat * stream :=
  match fuel with
  | O => (n, bits, chk false s)
  | S f =>
      if ((n <? size - 1) && negb (bits =? 0))%nat then
        match data_bit data n k with
        | None => (n, bits, chk false s)
        | Some bit =>
            let '(b, s) := stream_write_bit W s bit in
            if b then (n, bits - 1, s)%nat
            else many_inner f size (S n) (bits - 1) k data s
        end
      else (n, bits, s)
  end.

(** encode.c:129; the unsigned counter c is never decremented below zero here:
    the body is entered only when it is nonzero *)
Fixpoint many_outer (fuel size n bits c k : nat) (data : list Z) (s : stream) : nat * nat * stream :=
  match fuel with
  | O => (n, bits, chk false s)
  | S f =>
      if ((n <? size) && negb (bits =? 0))%nat then
        let '(b, s) := stream_write_bit W s (negb (c =? 0)%nat) in
        if b then
          let '(n, bits, s) := many_inner (S size) size n (bits - 1) k data s in
          many_outer f size (S n) bits (c - 1) k data s
        else (n, bits - 1, s)%nat
      else (n, bits, s)
  end.

(** encode.c:118-132 *)
Fixpoint many_planes (k kmin size n bits : nat) (data : list Z) (s : stream) : nat * stream :=
  match k with
  | O => (bits, s)
  | S k' =>
      if (negb (bits =? 0) && (kmin <? k))%nat then
        let m := Nat.min n bits in
        let s := many_write data m k' s in
        let c := many_count data m k' in
        let '(n, bits, s) := many_outer (S size) size n (bits - m) c k' data s in
        many_planes k' kmin size n bits data s
      else (bits, s)
  end.

(** encode_many_ints, encode.c:107-136 *)
Definition encode_many_ints (s : stream) (maxbits maxprec : nat) (data : list Z) : nat * stream :=
  let '(bits, s) := many_planes P (kmin_of maxprec) (length data) 0 maxbits data s in
  ((maxbits - bits)%nat, s).

(** decode.c:76: inner loop *)
Fixpoint dec_inner (fuel size n bits : nat) (s : stream) : nat * nat * stream :=
  match fuel with
  | O => (n, bits, chk false s)
  | S f =>
      if ((n <? size - 1) && negb (bits =? 0))%nat then
        let '(b, s) := stream_read_bit W s in
        if b then (n, bits - 1, s)%nat
        else dec_inner f size (S n) (bits - 1) s
      else (n, bits, s)
  end.

(** decode.c:75: outer loop; the shift count n must be below 64 *)
Fixpoint dec_outer (fuel size n bits : nat) (x : Z) (s : stream) : nat * nat * Z * stream :=
  match fuel with
  | O => (n, bits, x, chk false s)
  | S f =>
      if ((n <? size) && negb (bits =? 0))%nat then
        let '(b, s) := stream_read_bit W s in
        if b then
          let '(n, bits, s) := dec_inner (S size) size n (bits - 1) s in
          let s := chk (n <? 64)%nat s in
          dec_outer f size (S n) bits (u64 (x + Z.shiftl 1 (Z.of_nat n))) s
        else (n, bits - 1, x, s)%nat
      else (n, bits, x, s)
  end.

(** decode.c:79-80: deposit bit plane; None when it runs past the array *)
Fixpoint deposit (data : list Z) (x : Z) (k : nat) : option (list Z) :=
  if x =? 0 then Some data
  else match data with
  | [] => None
  | d :: r =>
      match deposit r (Z.shiftr x 1) k with
      | None => None
      | Some r' => Some (uintP (d + uintP (Z.shiftl (Z.land x 1) (Z.of_nat k))) :: r')
      end
  end.

(** decode.c:69-81 *)
Fixpoint dec_planes (k kmin size n bits : nat) (data : list Z) (s : stream) : nat * list Z * stream :=
  match k with
  | O => (bits, data, s)
  | S k' =>
      if (negb (bits =? 0) && (kmin <? k))%nat then
        let m := Nat.min n bits in
        let '(x, s) := stream_read_bits W s m in
        let '(n, bits, x, s) := dec_outer (S size) size n (bits - m) x s in
        match deposit data x k' with
        | None => (bits, data, chk false s)
        | Some data => dec_planes k' kmin size n bits data s
        end
      else (bits, data, s)
  end.

(** decode_ints, decode.c:53-85 *)
Definition decode_ints (s : stream) (maxbits maxprec size : nat) : nat * list Z * stream :=
  let '(bits, data, s) := dec_planes P (kmin_of maxprec) size 0 maxbits (repeat 0 size) s in
  ((maxbits - bits)%nat, data, s).

(** [data[i] += (UInt)1 << k]; None when outside the array *)
Definition add_bit (data : list Z) (i k : nat) : option (list Z) :=
  match nth_error data i with
  | None => None
  | Some d => Some (upd data i (uintP (d + uintP (Z.shiftl 1 (Z.of_nat k)))))
  end.

(** decode.c:107-109 *)
Fixpoint many_read (m i k : nat) (data : list Z) (s : stream) : list Z * stream :=
  match m with
  | O => (data, s)
  | S m' =>
      let '(b, s) := stream_read_bit W s in
      if b then
        match add_bit data i k with
        | None => (data, chk false s)
        | Some data => many_read m' (S i) k data s
        end
      else many_read m' (S i) k data s
  end.

(** decode.c:111; the inner loop, decode.c:112, is the one of decode_ints *)
Fixpoint dmany_outer (fuel size n bits k : nat) (data : list Z) (s : stream)
  : nat * nat * list Z * stream :=
  match fuel with
  | O => (n, bits, data, chk false s)
  | S f =>
      if ((n <? size) && negb (bits =? 0))%nat then
        let '(b, s) := stream_read_bit W s in
        if b then
          let '(n, bits, s) := dec_inner (S size) size n (bits - 1) s in
          match add_bit data n k with
          | None => (n, bits, data, chk false s)
          | Some data => dmany_outer f size (S n) bits k data s
          end
        else (n, bits - 1, data, s)%nat
      else (n, bits, data, s)
  end.

(** decode.c:103-114 *)
Fixpoint dmany_planes (k kmin size n bits : nat) (data : list Z) (s : stream) : nat * list Z * stream :=
  match k with
  | O => (bits, data, s)
  | S k' =>
      if (negb (bits =? 0) && (kmin <? k))%nat then
        let m := Nat.min n bits in
        let '(data, s) := many_read m 0 k' data s in
        let '(n, bits, data, s) := dmany_outer (S size) size n (bits - m) k' data s in
        dmany_planes k' kmin size n bits data s
      else (bits, data, s)
  end.

(** decode_many_ints, decode.c:88-118 *)
Definition decode_many_ints (s : stream) (maxbits maxprec size : nat) : nat * list Z * stream :=
  let '(bits, data, s) := dmany_planes P (kmin_of maxprec) size 0 maxbits (repeat 0 size) s in
  ((maxbits - bits)%nat, data, s).

End Codec.
