(** Model of OpenMP compression: zfp/src/share/parallel.c, zfp/src/share/omp.c and the
    chunk loop of zfp/src/template/ompcompress.c.

    A chunk is worked on by one thread at a time; a schedule is the order in which the
    threads of the parallel loop complete their block encodings.  Simplification: one block
    encoding is one step (in copy mode threads share only the array, which nobody writes;
    without copying they write disjoint words, which is proved, not assumed). *)
From Coq Require Import ZArith List Bool Arith.
From Verif Require Import Bitstream ZfpXform ZfpArray.
Import ListNotations.

Section Par.
Variable W : nat.
Variable A : Type.
Variable zero : A.
Variable enc : stream -> list A -> option stream.
Variable junk : list A.

(** chunk c: the next block it encodes and its stream *)
Definition worker := (nat * stream)%type.

(** the streams of compress_init_par with copy != 0, parallel.c:51-56, on the malloc'ed buffers *)
Definition start_workers (f : field) (chunks : nat) (bufs : list (list Z)) : list worker :=
  map (fun c => (chunk_offset (block_count f) chunks c, stream_open (nth c bufs []))) (seq 0 chunks).

(** one iteration of the block loop of chunk c, ompcompress.c:31-41; None when c has no block left *)
Definition work (f : field) (m : list A) (chunks c : nat) (ws : list worker) : option (list worker) :=
  match nth_error ws c with
  | None => None
  | Some (b, s) =>
      if (b <? chunk_offset (block_count f) chunks (c + 1))%nat
      then s <- encode_index A zero enc junk f m b s; Some (upd ws c (S b, s))
      else None
  end.
Fixpoint run (f : field) (m : list A) (chunks : nat) (sched : list nat) (ws : list worker) : option (list worker) :=
  match sched with [] => Some ws | c :: r => ws <- work f m chunks c ws; run f m chunks r ws end.

(** compress_finish_par with copy != 0, parallel.c:67-81 *)
Fixpoint finish_copy (dst : stream) (ws : list worker) : stream :=
  match ws with
  | [] => dst
  | (_, s) :: r =>
      let bits := stream_wtell W s in
      let s := stream_rewind (snd (stream_flush W s)) in
      finish_copy (fst (stream_copy W dst s bits)) r
  end.

(** parallel compression into private buffers *)
Definition compress_par_copy (f : field) (m : list A) (chunks : nat) (bufs : list (list Z)) (sched : list nat)
    (dst : stream) : option stream :=
  ws <- run f m chunks sched (start_workers f chunks bufs);
  Some (finish_copy dst ws).

(** *** without copies: every chunk stream writes into the caller's buffer *)

(** the copy flag of compress_init_par, parallel.c:44-48 *)
Definition must_copy (minbits maxbits : Z) (dst : stream) : bool :=
  negb (minbits =? maxbits)%Z || negb (maxbits mod Z.of_nat W =? 0)%Z || negb (stream_wtell W dst mod W =? 0)%nat.

(** word offset in the caller's buffer at which the stream of a chunk begins, parallel.c:54;
    stream_size(dst) is W/8 * ptr bytes *)
Definition region (maxbits : Z) (dst : stream) (block : nat) : nat := (ptr dst + block * Z.to_nat maxbits / W)%nat.

(** a stream over the words from [off] on of a shared memory: the chunk stream without its memory *)
Record wregs := mk_regs { rbits : nat; rbuf : Z; rptr : nat; rfault : bool }.
Definition regs_of (s : stream) : wregs := mk_regs (bits s) (buffer s) (ptr s) (fault s).
Definition on_mem (r : wregs) (m : list Z) : stream := mk_stream (rbits r) (rbuf r) (rptr r) m (rfault r).

Definition work_shared (f : field) (m : list A) (maxbits : Z) (dst : stream) (chunks c : nat)
    (st : list Z * list (nat * wregs)) : option (list Z * list (nat * wregs)) :=
  let '(mem, ws) := st in
  match nth_error ws c with
  | None => None
  | Some (b, r) =>
      if (b <? chunk_offset (block_count f) chunks (c + 1))%nat
      then let off := region maxbits dst (chunk_offset (block_count f) chunks c) in
           s <- encode_index A zero enc junk f m b (on_mem r (skipn off mem));
           Some (firstn off mem ++ Bitstream.mem s, upd ws c (S b, regs_of s))
      else None
  end.
Fixpoint run_shared (f : field) (m : list A) (maxbits : Z) (dst : stream) (chunks : nat) (sched : list nat)
    (st : list Z * list (nat * wregs)) : option (list Z * list (nat * wregs)) :=
  match sched with [] => Some st | c :: r => st <- work_shared f m maxbits dst chunks c st; run_shared f m maxbits dst chunks r st end.

Definition start_shared (f : field) (maxbits : Z) (dst : stream) (chunks : nat) : list Z * list (nat * wregs) :=
  (mem dst, map (fun c => (chunk_offset (block_count f) chunks c, regs_of (stream_open []))) (seq 0 chunks)).

(** compress_finish_par, parallel.c:64-87: stream_data of the first chunk is compared with that
    of the destination to decide on copying.  When they differ the buffers are freed; here they
    are parts of the caller's buffer, so that is undefined behaviour: None. *)
Definition finish_shared (f : field) (maxbits : Z) (dst : stream) (chunks : nat) (st : list Z * list (nat * wregs)) : option stream :=
  let '(m, ws) := st in
  let copy := negb (region maxbits dst (chunk_offset (block_count f) chunks 0) =? 0)%nat in
  if copy then (if (chunks =? 0)%nat then Some (mk_stream (bits dst) (buffer dst) (ptr dst) m (fault dst)) else None)
  else
    let '(m, offset) :=
      fold_left (fun '(m, offset) '(c, (_, r)) =>
          let off := region maxbits dst (chunk_offset (block_count f) chunks c) in
          let s := on_mem r (skipn off m) in
          (firstn off m ++ mem (snd (stream_flush W s)), (offset + stream_wtell W s)%nat))
        (combine (seq 0 chunks) ws) (m, stream_wtell W dst) in
    Some (stream_wseek W (mk_stream (bits dst) (buffer dst) (ptr dst) m (fault dst)) offset).

Definition compress_par_shared (f : field) (m : list A) (maxbits : Z) (chunks : nat) (sched : list nat) (dst : stream) : option stream :=
  st <- run_shared f m maxbits dst chunks sched (start_shared f maxbits dst chunks);
  finish_shared f maxbits dst chunks st.

(** the whole of compress_omp: compress_init_par, the parallel loop, compress_finish_par *)
Definition compress_par (f : field) (m : list A) (minbits maxbits : Z) (chunks : nat) (bufs : list (list Z)) (sched : list nat)
    (dst : stream) : option stream :=
  if must_copy minbits maxbits dst then compress_par_copy f m chunks bufs sched dst
  else compress_par_shared f m maxbits chunks sched dst.
End Par.
