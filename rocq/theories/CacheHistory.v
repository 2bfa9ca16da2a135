(** What every history of operations on a compressed array may observe.

    [allowed c o r]: on an array with contents c, operation o may behave as r says: [None] is
    undefined behaviour (of compressing a block, or a decoded value outside the scalar type),
    [Some (y, c')] is the observation y and the new contents.

    The operations and the observations are those of ZfpCache.v, the contents those of
    CacheSpec.v; no cache, tag or bit offset appears, except that the words returned by
    compressed_data are read with the block decoder at multiples of [blkbits]. *)
From Coq Require Import ZArith List Bool Arith.
From Verif Require Import Bitstream ZfpXform ArraySpec CacheSpec ZfpCache.
Import ListNotations.
Local Open Scope Z_scope.

Section History.
Variables (W blkbits : nat) (rt : list Z -> option (option (list Z))) (dec : stream -> stream * option (list Z)).

(** block b decoded from the words of compressed_data *)
Definition decoded_block (words : list Z) (b : nat) : option (list Z) :=
  snd (dec (stream_rseek W (stream_open words) (b * blkbits))).

Inductive allowed (c : contents) : op -> option (out * contents) -> Prop :=
  | allow_get cs r : make_room rt c (block_of (csize c) cs) r ->
      allowed c (Get cs) (c' <- r; v <- current c' cs; Some (Value v, c'))
  | allow_update cs f r : make_room rt c (block_of (csize c) cs) r ->
      allowed c (Update cs f) (c' <- r; v <- current c' cs; Some (Nothing, put_value c' cs (f v)))
  | allow_get_flat i cs r : flat (csize c) i cs -> allowed c (Get cs) r -> allowed c (GetFlat i) r
  | allow_update_flat i cs f r : flat (csize c) i cs -> allowed c (Update cs f) r -> allowed c (UpdateFlat i f) r
  | allow_flush : allowed c Flush (c' <- compress_blocks rt (changed c) c; Some (Nothing, c'))
  | allow_clear : allowed c Clear (Some (Nothing, mk_contents (csize c) (saved c) (saved c) (fun _ => false)))
  | allow_cache_size n : allowed c (CacheSize n) (c' <- compress_blocks rt (changed c) c; Some (Nothing, c'))
  | allow_get_all m p m' : stored c m p m' -> allowed c (GetAll m p) (Some (Memory m', c))
  | allow_get_all_undefined m p cs : inside cs (csize c) -> current c cs = None -> allowed c (GetAll m p) None
  | allow_set_all m p :
      allowed c (SetAll m p) (c' <- compress_blocks rt (fun _ => true) (from_memory (csize c) m p); Some (Nothing, c'))
  | allow_resize ns : allowed c (Resize ns) (Some (Nothing, zeros ns))
  | allow_data_undefined : compress_blocks rt (changed c) c = None -> allowed c Data None
  | allow_data words c' : compress_blocks rt (changed c) c = Some c' ->
      (W * length words = blocks_in (csize c) * blkbits)%nat ->
      (forall cs, inside cs (csize c) -> pick (decoded_block words (block_of (csize c) cs)) (place_of cs) = current c' cs) ->
      allowed c Data (Some (Words words, c')).

(** a sequence of operations and all it observes; [None] if it runs into undefined behaviour *)
Inductive history : contents -> list op -> option (list out) -> Prop :=
  | done c : history c [] (Some [])
  | undefined c o os : allowed c o None -> history c (o :: os) None
  | step c o os y c' r : allowed c o (Some (y, c')) -> history c' os r -> history c (o :: os) (option_map (cons y) r).
End History.

(** ** What a program must respect *)
Section Valid.
Variable val : Z -> Prop.  (* the values of the scalar type that can be compressed *)
Variable size : Z.         (* bytes per scalar *)

(** an array size: all extents positive, fewer than 2^31 blocks *)
Definition array_size (d : nat) (ns : list nat) : Prop :=
  length ns = d /\ Forall (fun n => 0 < n)%nat ns /\ Z.of_nat (blocks_in ns) <= 2 ^ 31 - 1.

Definition valid_op (d : nat) (ns : list nat) (o : op) : Prop :=
  match o with
  | Get cs => inside cs ns
  | Update cs f => inside cs ns /\ forall x, val x -> val (f x)
  | GetFlat i => (i < fold_right Nat.mul 1 ns)%nat
  | UpdateFlat i f => (i < fold_right Nat.mul 1 ns)%nat /\ forall x, val x -> val (f x)
  | Flush | Clear | Data => True
  | CacheSize n => line_count size n ns <= 2 ^ 31
  | GetAll m p => fits m p ns (contiguous 1 ns)
  | SetAll m p => fits m p ns (contiguous 1 ns) /\ forall cs, inside cs ns -> val (at_addr 0 m (addr p (contiguous 1 ns) cs))
  | Resize ns' => array_size d ns'
  end.
Definition size_after (ns : list nat) (o : op) : list nat := match o with Resize ns' => ns' | _ => ns end.
Fixpoint valid_ops (d : nat) (ns : list nat) (os : list op) : Prop :=
  match os with [] => True | o :: r => valid_op d ns o /\ valid_ops d (size_after ns o) r end.
End Valid.
