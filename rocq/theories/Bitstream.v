(** Model of zfp/src/inline/bitstream.c (default build, no BIT_STREAM_STRIDED).

    [W] is [wsize] (8, 16, 32 or 64, bitstream.c:106-120).  Pointers are word
    indices relative to [s->begin]; [mem] holds the words [begin..end).
    [fault] is a ghost flag: it is set by any access outside [begin,end) and by
    any shift whose count is not below 64 (both undefined behaviour in C). *)
From Coq Require Import ZArith List Bool Arith.
Import ListNotations.
Local Open Scope Z_scope.

(** struct bitstream, bitstream.c:123-133 (without mask/delta). *)
Record stream := mk_stream {
  bits : nat;      (* uint bits: number of buffered bits *)
  buffer : Z;      (* word buffer *)
  ptr : nat;       (* s->ptr - s->begin *)
  mem : list Z;    (* the words at begin, begin+1, ..., end-1 *)
  fault : bool     (* ghost: undefined behaviour happened *)
}.

(** conversion to uint64 *)
Definition u64 (v : Z) : Z := v mod 2 ^ 64.

(** ghost check of a shift count (C11 6.5.7p3) *)
Definition chk (c : bool) (s : stream) : stream :=
  mk_stream (bits s) (buffer s) (ptr s) (mem s) (fault s || negb c).

Definition set_bits (b : nat) (s : stream) : stream :=
  mk_stream b (buffer s) (ptr s) (mem s) (fault s).
Definition set_buffer (b : Z) (s : stream) : stream :=
  mk_stream (bits s) b (ptr s) (mem s) (fault s).
Definition set_ptr (p : nat) (s : stream) : stream :=
  mk_stream (bits s) (buffer s) p (mem s) (fault s).

(** store in one cell of memory *)
Fixpoint upd {A} (l : list A) (i : nat) (v : A) : list A :=
  match l, i with
  | [], _ => []
  | _ :: r, O => v :: r
  | x :: r, S i' => x :: upd r i' v
  end.

(** stream_read_word, bitstream.c:138-147 *)
Definition stream_read_word (s : stream) : Z * stream :=
  (nth (ptr s) (mem s) 0,
   mk_stream (bits s) (buffer s) (S (ptr s)) (mem s)
     (fault s || negb (ptr s <? length (mem s))%nat)).

(** stream_write_word, bitstream.c:150-158 *)
Definition stream_write_word (s : stream) (v : Z) : stream :=
  mk_stream (bits s) (buffer s) (S (ptr s)) (upd (mem s) (ptr s) v)
    (fault s || negb (ptr s <? length (mem s))%nat).

Section Wsize.
Variable W : nat.  (* wsize *)

(** conversion to the word type *)
Definition word (v : Z) : Z := v mod 2 ^ Z.of_nat W.

(** stream_size, bitstream.c:170-174 (in words; C multiplies by sizeof(word)) *)
Definition stream_size (s : stream) : nat := ptr s.
(** stream_capacity, bitstream.c:177-181 (in words) *)
Definition stream_capacity (s : stream) : nat := length (mem s).

(** stream_read_bit, bitstream.c:206-218 *)
Definition stream_read_bit (s : stream) : bool * stream :=
  let s := if (bits s =? 0)%nat
           then let '(w, s1) := stream_read_word s in set_bits W (set_buffer w s1)
           else s in
  let s := set_bits (bits s - 1) s in
  let bit := Z.odd (buffer s) in
  (bit, set_buffer (Z.shiftr (buffer s) 1) s).

(** stream_write_bit, bitstream.c:221-231; [bit] must be 0 or 1, hence bool *)
Definition stream_write_bit (s : stream) (bit : bool) : bool * stream :=
  let s := set_buffer (word (buffer s + Z.shiftl (Z.b2z bit) (Z.of_nat (bits s)))) s in
  let s := set_bits (S (bits s)) s in
  (bit,
   if (bits s =? W)%nat
   then set_bits 0 (set_buffer 0 (stream_write_word s (buffer s)))
   else s).

(** the do-while loop of stream_read_bits, bitstream.c:241-246; fuel 65 is
    enough because every iteration adds W >= 1 bits (running out of fuel would
    set [fault]) *)
Fixpoint read_fill (fuel : nat) (n : nat) (value : Z) (s : stream) : Z * stream :=
  match fuel with
  | O => (value, chk false s)
  | S f =>
      let '(w, s1) := stream_read_word s in
      let s1 := set_buffer w s1 in
      let value := u64 (value + u64 (Z.shiftl w (Z.of_nat (bits s1)))) in
      let s2 := set_bits (bits s1 + W) (chk (bits s1 <? 64)%nat s1) in
      if ((W <? 64) && (bits s2 <? n))%nat%bool then read_fill f n value s2
      else (value, s2)
  end.

(** stream_read_bits, bitstream.c:234-266 *)
Definition stream_read_bits (s : stream) (n : nat) : Z * stream :=
  let value := buffer s in
  if (bits s <? n)%nat then
    let '(value, s) := read_fill 65 n value s in
    let s := set_bits (bits s - n) s in
    if (bits s =? 0)%nat then (value, set_buffer 0 s)
    else
      let s := set_buffer (Z.shiftr (buffer s) (Z.of_nat (W - bits s))) s in
      let s := chk (n - 1 <? 64)%nat s in
      (Z.land value (u64 (Z.shiftl 2 (Z.of_nat (n - 1)) - 1)), s)
  else
    let s := set_bits (bits s - n) s in
    let s := set_buffer (Z.shiftr (buffer s) (Z.of_nat n)) s in
    let s := chk (n <? 64)%nat s in
    (Z.land value (u64 (Z.shiftl 1 (Z.of_nat n) - 1)), s).

(** the do-while loop of stream_write_bits, bitstream.c:280-288 *)
Fixpoint write_drain (fuel : nat) (value : Z) (n : nat) (s : stream) : stream :=
  match fuel with
  | O => chk false s
  | S f =>
      let s := set_bits (bits s - W) s in
      let s := stream_write_word s (buffer s) in
      let s := chk ((bits s <=? n) && (n - bits s <? 64))%nat s in
      let s := set_buffer (word (Z.shiftr value (Z.of_nat (n - bits s)))) s in
      if ((W <? 64) && (W <=? bits s))%nat%bool then write_drain f value n s else s
  end.

(** stream_write_bits, bitstream.c:269-294 *)
Definition stream_write_bits (s : stream) (value : Z) (n : nat) : Z * stream :=
  let s := chk (bits s <? 64)%nat s in
  let s := set_buffer (word (buffer s + word (u64 (Z.shiftl value (Z.of_nat (bits s)))))) s in
  let s := set_bits (bits s + n) s in
  let '(value, n, s) :=
    if (W <=? bits s)%nat then
      let value := Z.shiftr value 1 in
      let n := (n - 1)%nat in
      (value, n, write_drain 65 value n s)
    else (value, n, s) in
  let s := chk (n <? 64)%nat (chk (bits s <? W)%nat s) in
  let s := set_buffer (Z.land (buffer s) (word (Z.shiftl 1 (Z.of_nat (bits s)) - 1))) s in
  (Z.shiftr value (Z.of_nat n), s).

(** stream_rtell, bitstream.c:297-301 *)
Definition stream_rtell (s : stream) : nat := (W * ptr s - bits s)%nat.
(** stream_wtell, bitstream.c:304-308 *)
Definition stream_wtell (s : stream) : nat := (W * ptr s + bits s)%nat.

(** stream_rewind, bitstream.c:311-317 *)
Definition stream_rewind (s : stream) : stream :=
  mk_stream 0 0 0 (mem s) (fault s).

(** stream_rseek, bitstream.c:320-333 *)
Definition stream_rseek (s : stream) (offset : nat) : stream :=
  let n := (offset mod W)%nat in
  let s := set_ptr (offset / W)%nat s in
  if (n =? 0)%nat then set_bits 0 (set_buffer 0 s)
  else
    let '(w, s) := stream_read_word s in
    set_bits (W - n) (set_buffer (Z.shiftr w (Z.of_nat n)) s).

(** stream_wseek, bitstream.c:336-351; the read of *s->ptr is checked *)
Definition stream_wseek (s : stream) (offset : nat) : stream :=
  let n := (offset mod W)%nat in
  let s := set_ptr (offset / W)%nat s in
  if (n =? 0)%nat then set_bits 0 (set_buffer 0 s)
  else
    let s := chk (ptr s <? length (mem s))%nat s in
    let w := nth (ptr s) (mem s) 0 in
    set_bits n (set_buffer (Z.land w (word (Z.shiftl 1 (Z.of_nat n) - 1))) s).

(** stream_skip, bitstream.c:354-358 (size_t wrap-around of the offset is not
    modelled: offsets are bounded by the memory size) *)
Definition stream_skip (s : stream) (n : nat) : stream :=
  stream_rseek s (stream_rtell s + n).

(** the loop of stream_pad, bitstream.c:364-367; [fuel] bounds the iterations *)
Fixpoint pad_loop (fuel : nat) (s : stream) : stream :=
  match fuel with
  | O => s
  | S f =>
      if (W <=? bits s)%nat then
        let s := stream_write_word s (buffer s) in
        let s := set_buffer 0 s in
        pad_loop f (set_bits (bits s - W) s)
      else s
  end.

(** stream_pad, bitstream.c:361-368 (wrap-around of the 32-bit counter for
    n > 2^32 - 64 is not modelled) *)
Definition stream_pad (s : stream) (n : nat) : stream :=
  let s := set_bits (bits s + n) s in
  pad_loop (S (bits s)) s.

(** stream_align, bitstream.c:371-378 *)
Definition stream_align (s : stream) : nat * stream :=
  let b := bits s in
  (b, if (b =? 0)%nat then s else stream_skip s b).

(** stream_flush, bitstream.c:381-388 *)
Definition stream_flush (s : stream) : nat * stream :=
  let b := ((W - bits s) mod W)%nat in
  (b, if (b =? 0)%nat then s else stream_pad s b).

(** stream_copy, bitstream.c:391-404 (dst and src are distinct streams; the
    fuel is the number of bits, enough because every iteration copies W >= 1) *)
Fixpoint copy_loop (fuel : nat) (dst src : stream) (n : nat) : stream * stream * nat :=
  match fuel with
  | O => (dst, src, n)
  | S f =>
      if (W <? n)%nat then
        let '(w, src) := stream_read_bits src W in
        let '(_, dst) := stream_write_bits dst (word w) W in
        copy_loop f dst src (n - W)
      else (dst, src, n)
  end.

Definition stream_copy (dst src : stream) (n : nat) : stream * stream :=
  let '(dst, src, n) := copy_loop n dst src n in
  if (n =? 0)%nat then (dst, src)
  else
    let '(w, src) := stream_read_bits src n in
    let '(_, dst) := stream_write_bits dst (word w) n in
    (dst, src).

(** stream_open, bitstream.c:420-433; [buf] is the caller's buffer cut to whole
    words *)
Definition stream_open (buf : list Z) : stream := stream_rewind (mk_stream 0 0 0 buf false).

End Wsize.
