(** Specification vocabulary for the bit stream properties: sequences of write
    operations, the bits they stand for, and the bits of a memory. *)
From Coq Require Import ZArith List Bool Arith.
From Verif Require Import Bitstream.
Import ListNotations.
Local Open Scope Z_scope.

(** The word sizes the C code can be compiled for. *)
Definition word_size (W : nat) : Prop := W = 8%nat \/ W = 16%nat \/ W = 32%nat \/ W = 64%nat.

(** A buffer of unsigned W-bit words. *)
Definition buffer_ok (W : nat) (m : list Z) : Prop := Forall (fun w => 0 <= w < 2 ^ Z.of_nat W) m.

(** What a client may write: one bit, the n low bits of a 64-bit value, or n zeros. *)
Inductive wop := PutBit (b : bool) | PutBits (v : Z) (n : nat) | Pad (n : nat).

Definition op_ok (o : wop) : Prop :=
  match o with PutBits v n => 0 <= v < 2 ^ 64 /\ (n <= 64)%nat | _ => True end.

Definition op_len (o : wop) : nat :=
  match o with PutBit _ => 1 | PutBits _ n => n | Pad n => n end%nat.

(** the bits an operation stands for, least significant first *)
Definition op_bits (o : wop) : list bool :=
  match o with
  | PutBit b => [b]
  | PutBits v n => map (fun i => Z.testbit v (Z.of_nat i)) (seq 0 n)
  | Pad n => repeat false n
  end.

(** the value a matching read returns *)
Definition op_value (o : wop) : Z :=
  match o with PutBit b => Z.b2z b | PutBits v n => v mod 2 ^ Z.of_nat n | Pad _ => 0 end.

Definition all_bits (ops : list wop) : list bool := concat (map op_bits ops).
Definition total (ops : list wop) : nat := list_sum (map op_len ops).

(** bit number i of a memory of W-bit words *)
Definition mem_bit (W : nat) (m : list Z) (i : nat) : bool :=
  Z.testbit (nth (i / W) m 0) (Z.of_nat (i mod W)).

(** round up to a multiple of W *)
Definition round_up (W k : nat) : nat := (W * ((k + W - 1) / W))%nat.

(** running the operations with the API *)
Definition do_write (W : nat) (s : stream) (o : wop) : stream :=
  match o with
  | PutBit b => snd (stream_write_bit W s b)
  | PutBits v n => snd (stream_write_bits W s v n)
  | Pad n => stream_pad W s n
  end.
Definition do_writes (W : nat) (s : stream) (ops : list wop) : stream := fold_left (do_write W) ops s.

Definition do_read (W : nat) (s : stream) (o : wop) : Z * stream :=
  match o with
  | PutBit _ => let '(b, s) := stream_read_bit W s in (Z.b2z b, s)
  | PutBits _ n => stream_read_bits W s n
  | Pad n => (0, stream_skip W s n)
  end.
Fixpoint do_reads (W : nat) (s : stream) (ops : list wop) : list Z * stream :=
  match ops with
  | [] => ([], s)
  | o :: r => let '(v, s) := do_read W s o in
              let '(vs, s) := do_reads W s r in (v :: vs, s)
  end.

(** reading n bits one at a time *)
Fixpoint read_each (W : nat) (s : stream) (n : nat) : list bool * stream :=
  match n with
  | O => ([], s)
  | S k => let '(b, s) := stream_read_bit W s in
           let '(bs, s) := read_each W s k in (b :: bs, s)
  end.

(** writing a list of bits one at a time *)
Definition put (W : nat) (s : stream) (l : list bool) : stream := do_writes W s (map PutBit l).
