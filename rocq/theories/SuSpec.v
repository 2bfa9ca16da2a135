(** Seismic data files: what a file contains and how it is divided into shot records.
    Independent of the model. *)
From Coq Require Import ZArith QArith List Bool Sorted.
Import ListNotations.
Local Open Scope Z_scope.

(** the bytes [first..last] (numbered from 1, as in the SEG-Y standard) of a header, little endian,
    unsigned and in two's complement *)
Definition bytes_of (first last : nat) (h : list Z) : list Z := map (fun k => nth (k - 1) h 0) (seq first (last + 1 - first)).
Definition unsigned_of (bs : list Z) : Z := fold_right (fun b acc => b + 256 * acc) 0 bs.
Definition signed_of (bs : list Z) : Z :=
  let v := unsigned_of bs in let m := 2 ^ (8 * Z.of_nat (length bs)) in if m / 2 <=? v then v - m else v.

(** a trace: a header of 240 bytes and samples of four bytes *)
Record trace := mkTrace { t_hdr : list Z; t_smp : list (list Z) }.
Definition fldr (t : trace) : Z := signed_of (bytes_of 9 12 (t_hdr t)).
Definition selev (t : trace) : Z := signed_of (bytes_of 45 48 (t_hdr t)).
Definition sx (t : trace) : Z := signed_of (bytes_of 73 76 (t_hdr t)).
Definition gx (t : trace) : Z := signed_of (bytes_of 81 84 (t_hdr t)).
Definition scalco (t : trace) : Z := signed_of (bytes_of 71 72 (t_hdr t)).
Definition scalel (t : trace) : Z := signed_of (bytes_of 69 70 (t_hdr t)).
Definition trid (t : trace) : Z := signed_of (bytes_of 29 30 (t_hdr t)).
Definition delrt (t : trace) : Z := signed_of (bytes_of 109 110 (t_hdr t)).
Definition ns (t : trace) : Z := unsigned_of (bytes_of 115 116 (t_hdr t)).
Definition dt (t : trace) : Z := unsigned_of (bytes_of 117 118 (t_hdr t)).
Definition trwf (t : trace) : Z := signed_of (bytes_of 169 170 (t_hdr t)).

Definition is_trace (n : Z) (t : trace) : Prop :=
  length (t_hdr t) = 240%nat /\ ns t = n /\ Z.of_nat (length (t_smp t)) = n /\ Forall (fun s => length s = 4%nat) (t_smp t).
Definition trace_bytes (t : trace) : list Z := t_hdr t ++ concat (t_smp t).
Definition file_of (ts : list trace) : list Z := concat (map trace_bytes ts).

(** shot records: consecutive traces with the same source position and field record number *)
Definition same_shot (a b : trace) : Prop := sx a = sx b /\ fldr a = fldr b.
Definition records (ts : list trace) (gs : list (list trace)) : Prop :=
  concat gs = ts /\
  Forall (fun g => g <> [] /\ forall a b, In a g -> In b g -> same_shot a b) gs /\
  (forall l g h r, gs = l ++ g :: h :: r -> forall a b, In a g -> In b h -> ~ same_shot a b).

(** the arrays hold the traces g, n samples per trace, and are unchanged elsewhere *)
Definition holds (n : Z) (g : list trace) (data hdrs data' hdrs' : Z -> list Z) : Prop :=
  (forall i t, nth_error g i = Some t -> hdrs' (Z.of_nat i) = t_hdr t) /\
  (forall i t j s, nth_error g i = Some t -> nth_error (t_smp t) j = Some s -> data' (Z.of_nat i * n + Z.of_nat j) = s) /\
  (forall i, ~ 0 <= i < Z.of_nat (length g) -> hdrs' i = hdrs i) /\
  (forall i, ~ 0 <= i < Z.of_nat (length g) * n -> data' i = data i).

(** the largest length of the lists *)
Definition longest {A} (gs : list (list A)) : Z := fold_right (fun g m => Z.max (Z.of_nat (length g)) m) 0 gs.
(** factor for coordinates: positive multiplies, negative divides *)
Definition factor (v : Z) : Q := if v =? 0 then 1%Q else if v <? 0 then (1 / inject_Z (- v))%Q else inject_Z v.

(** Reciprocity.  Shot k has cnt k receivers; receiver l is at rpos (k*nx+l) (grid units) and at the
    place [place k l] of the array of positions; the source is at spos k. *)
Section RECIPROCITY.
Variables (nshots nx : Z) (cnt spos rpos : Z -> Z) (place : Z -> Z -> Z).
Definition is_recorded (k l : Z) : Prop := 0 <= k < nshots /\ 0 <= l < cnt k.
(** the first shot with its source at the receiver *)
Definition shot_at (k l m : Z) : Prop := 0 <= m < nshots /\ spos m = rpos (k * nx + l) /\ forall m', 0 <= m' < m -> spos m' <> rpos (k * nx + l).
(** that shot has recorded the same pair of places *)
Definition already_there (k l : Z) : Prop := exists m, shot_at k l m /\ exists j, 0 <= j < cnt m /\ rpos (m * nx + j) = spos k.
Definition before (p q : Z * Z) : Prop := fst p < fst q \/ (fst p = fst q /\ snd p < snd q).
(** the traces that become reciprocal traces at place b, in order of shot and receiver *)
Definition reciprocal (opt b : Z) (L : list (Z * Z)) : Prop :=
  StronglySorted before L /\
  forall k l, In (k, l) L <-> is_recorded k l /\ place k l = b /\ (opt = 1 -> ~ already_there k l).
End RECIPROCITY.
