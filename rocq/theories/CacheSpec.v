(** What a user of a compressed array relies on, stated without cache, tags or bit offsets.

    An array of size [ns] has a current value at every coordinate vector, and a saved
    (compressed) value.  Writing changes the current value of one element.  At moments the
    user does not choose, a block of 4^d elements that was changed is compressed: its current
    values, and the saved ones, become what the compressed block decodes to.

    Coordinates, blocks and addresses: ArraySpec.v. *)
From Coq Require Import ZArith List Bool Arith.
From Verif Require Import ArraySpec.
Import ListNotations.
Local Open Scope Z_scope.

(** current and saved value of every element; [None] if the compressed block decodes to a
    value outside the scalar type.  [changed] tells the blocks changed since they were last
    compressed. *)
Record contents := mk_contents {
  csize : list nat;
  current : list nat -> option Z;
  saved : list nat -> option Z;
  changed : nat -> bool }.

Fixpoint all_some {A} (l : list (option A)) : option (list A) :=
  match l with
  | [] => Some []
  | Some x :: r => match all_some r with Some t => Some (x :: t) | None => None end
  | None :: _ => None
  end.

Section Spec.
(** [rt b] is what compressing and decompressing block b gives: [None] if compressing is
    undefined, [Some None] if a value decodes to something outside the scalar type *)
Variable rt : list Z -> option (option (list Z)).

(** block number b, partial blocks padded *)
Definition padded_block (c : contents) (b : nat) : option (list Z) :=
  all_some (map (fun i => current c (cell (csize c) b i)) (seq 0 (4 ^ length (csize c)))).
Definition rounded (c : contents) (b : nat) : option (option (list Z)) :=
  match padded_block c b with Some v => rt v | None => None end.
(** the value at position i of a decoded block *)
Definition pick (q : option (list Z)) (i : nat) : option Z :=
  match q with Some l => nth_error l i | None => None end.

(** all blocks b < blocks with S b are compressed; [None] if that is undefined for one of them *)
Definition compress_blocks (S : nat -> bool) (c : contents) : option contents :=
  if forallb (fun b => negb (S b) || match rounded c b with Some _ => true | None => false end) (seq 0 (blocks_in (csize c)))
  then
    let new old cs :=
      let b := block_of (csize c) cs in
      if S b then match rounded c b with Some q => pick q (place_of cs) | None => None end else old cs in
    Some (mk_contents (csize c) (new (current c)) (new (saved c)) (fun b => changed c b && negb (S b)))
  else None.

(** strides of a contiguous array *)
Fixpoint contiguous (s : Z) (ns : list nat) : list Z :=
  match ns with [] => [] | n :: r => s :: contiguous (s * Z.of_nat n) r end.

(** before an element of block b is accessed, at most one changed block other than b is compressed *)
Inductive make_room (c : contents) (b : nat) : option contents -> Prop :=
  | room : make_room c b (Some c)
  | evict e : e <> b -> (e < blocks_in (csize c))%nat -> changed c e = true ->
      make_room c b (compress_blocks (Nat.eqb e) c).

Definition put_value (c : contents) (cs : list nat) (v : Z) : contents :=
  mk_contents (csize c) (fun ds => if list_eq_dec Nat.eq_dec ds cs then Some v else current c ds) (saved c)
    (fun b => changed c b || (b =? block_of (csize c) cs)%nat).

(** the element with a flat index *)
Definition flat (ns : list nat) (i : nat) (cs : list nat) : Prop := inside cs ns /\ number ns cs = i.

(** the memory m' is m with the array stored at p *)
Definition stored (c : contents) (m : list Z) (p : Z) (m' : list Z) : Prop :=
  length m' = length m /\
  (forall cs, inside cs (csize c) -> current c cs = Some (at_addr 0 m' (addr p (contiguous 1 (csize c)) cs))) /\
  (forall a, 0 <= a -> (forall cs, inside cs (csize c) -> addr p (contiguous 1 (csize c)) cs <> a) -> at_addr 0 m' a = at_addr 0 m a).

(** the contents of an array read from memory, all blocks changed *)
Definition from_memory (ns : list nat) (m : list Z) (p : Z) : contents :=
  mk_contents ns (fun cs => Some (at_addr 0 m (addr p (contiguous 1 ns) cs))) (fun _ => Some 0) (fun _ => true).

Definition zeros (ns : list nat) : contents := mk_contents ns (fun _ => Some 0) (fun _ => Some 0) (fun _ => false).
End Spec.
