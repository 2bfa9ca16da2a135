(** Model of the array layer of zfp: padding, gathering and scattering of blocks
    (zfp/src/template/encode.c, encode1-4.c, decode1-4.c) and the serial and chunked
    traversal of a strided array (compress.c, decompress.c, ompcompress.c).

    An array lives in a memory of scalars [list A]; a pointer is an index into it, an
    integer because strides may be negative.  Reading or writing outside the memory gives
    [None].  Simplification: forming (without dereferencing) a pointer outside the memory
    is allowed.  [enc] and [dec] stand for zfp_encode_block and zfp_decode_block of the
    scalar type at hand. *)
From Coq Require Import ZArith List Bool Arith.
From Verif Require Import Bitstream ZfpXform.
Import ListNotations.
Local Open Scope Z_scope.

(** for (i = i0; i < i0 + n; i++) *)
Fixpoint for_ {S : Type} (n i : nat) (body : nat -> S -> option S) (s : S) : option S :=
  match n with
  | O => Some s
  | Datatypes.S k => s <- body i s; for_ k (Datatypes.S i) body s
  end.

(** for (x = x0; x < n; x += 4); wrap-around of the 32-bit x for n > 2^32 - 4 is not modelled *)
Fixpoint step4 {S : Type} (fuel n x : nat) (body : nat -> S -> option S) (s : S) : option S :=
  match fuel with
  | O => None
  | Datatypes.S f => if (x <? n)%nat then s <- body x s; step4 f n (x + 4) body s else Some s
  end.
Definition loop4 {S : Type} (n : nat) (body : nat -> S -> option S) (s : S) : option S :=
  step4 (Datatypes.S n) n 0 body s.

Section Scalar.
Variable A : Type.
Variable zero : A.

Definition rd (m : list A) (p : Z) : option A := if 0 <=? p then nth_error m (Z.to_nat p) else None.
Definition wr (m : list A) (p : Z) (v : A) : option (list A) :=
  if (0 <=? p) && (p <? Z.of_nat (length m)) then Some (upd m (Z.to_nat p) v) else None.

(** p[i] = p[j] *)
Definition mv (q : list A) (i j : nat) : option (list A) :=
  v <- rd q (Z.of_nat j); wr q (Z.of_nat i) v.

(** pad_block, encode.c:7-27, on q + off; the cases fall through *)
Definition pad_block (q : list A) (off n s : nat) : option (list A) :=
  q <- (if (n =? 0)%nat then wr q (Z.of_nat (off + 0 * s)) zero else Some q);
  q <- (if (n <=? 1)%nat then mv q (off + 1 * s) (off + 0 * s) else Some q);
  q <- (if (n <=? 2)%nat then mv q (off + 2 * s) (off + 1 * s) else Some q);
  (if (n <=? 3)%nat then mv q (off + 3 * s) (off + 0 * s) else Some q).

(** *q++ = *p: the block so far and the pointer *)
Definition get (m : list A) (sx : Z) (st : list A * Z) : option (list A * Z) :=
  let '(q, p) := st in v <- rd m p; Some (q ++ [v], p + sx).

(** gather, encode1.c:3-10 *)
Definition gather1 (m : list A) (p sx : Z) : option (list A) :=
  r <- for_ 4 0 (fun x st => get m sx st) ([], p); Some (fst r).
(** encode2.c:3-11 *)
Definition gather2 (m : list A) (p sx sy : Z) : option (list A) :=
  r <- for_ 4 0 (fun y st =>
         st <- for_ 4 0 (fun x st => get m sx st) st;
         let '(q, p) := st in Some (q, p + (sy - 4 * sx))) ([], p);
  Some (fst r).
(** encode3.c:3-12 *)
Definition gather3 (m : list A) (p sx sy sz : Z) : option (list A) :=
  r <- for_ 4 0 (fun z st =>
         st <- for_ 4 0 (fun y st =>
                 st <- for_ 4 0 (fun x st => get m sx st) st;
                 let '(q, p) := st in Some (q, p + (sy - 4 * sx))) st;
         let '(q, p) := st in Some (q, p + (sz - 4 * sy))) ([], p);
  Some (fst r).
(** encode4.c:3-13 *)
Definition gather4 (m : list A) (p sx sy sz sw : Z) : option (list A) :=
  r <- for_ 4 0 (fun w st =>
         st <- for_ 4 0 (fun z st =>
                 st <- for_ 4 0 (fun y st =>
                         st <- for_ 4 0 (fun x st => get m sx st) st;
                         let '(q, p) := st in Some (q, p + (sy - 4 * sx))) st;
                 let '(q, p) := st in Some (q, p + (sz - 4 * sy))) st;
         let '(q, p) := st in Some (q, p + (sw - 4 * sz))) ([], p);
  Some (fst r).

(** q[i] = *p *)
Definition put_at (m : list A) (sx : Z) (i : nat) (st : list A * Z) : option (list A * Z) :=
  let '(q, p) := st in v <- rd m p; q <- wr q (Z.of_nat i) v; Some (q, p + sx).
(** a padding loop body on the block component of the state *)
Definition on_block (f : list A -> option (list A)) (st : list A * Z) : option (list A * Z) :=
  let '(q, p) := st in q <- f q; Some (q, p).
(** p += v in the increment part of a for *)
Definition move (v : Z) (st : list A * Z) : option (list A * Z) :=
  let '(q, p) := st in Some (q, p + v).

(** gather_partial, encode1.c:12-20; [q] is the uninitialised block *)
Definition gather_partial1 (q m : list A) (p : Z) (nx : nat) (sx : Z) : option (list A) :=
  st <- for_ nx 0 (fun x st => put_at m sx x st) (q, p);
  pad_block (fst st) 0 nx 1.
(** encode2.c:13-25 *)
Definition gather_partial2 (q m : list A) (p : Z) (nx ny : nat) (sx sy : Z) : option (list A) :=
  st <- for_ ny 0 (fun y st =>
          st <- for_ nx 0 (fun x st => put_at m sx (4 * y + x) st) st;
          st <- on_block (fun q => pad_block q (4 * y) nx 1) st;
          move (sy - Z.of_nat nx * sx) st) (q, p);
  for_ 4 0 (fun x q => pad_block q x ny 4) (fst st).
(** encode3.c:14-31 *)
Definition gather_partial3 (q m : list A) (p : Z) (nx ny nz : nat) (sx sy sz : Z) : option (list A) :=
  st <- for_ nz 0 (fun z st =>
          st <- for_ ny 0 (fun y st =>
                  st <- for_ nx 0 (fun x st => put_at m sx (16 * z + 4 * y + x) st) st;
                  st <- on_block (fun q => pad_block q (16 * z + 4 * y) nx 1) st;
                  move (sy - Z.of_nat nx * sx) st) st;
          st <- on_block (for_ 4 0 (fun x q => pad_block q (16 * z + x) ny 4)) st;
          move (sz - Z.of_nat ny * sy) st) (q, p);
  for_ 4 0 (fun y => for_ 4 0 (fun x q => pad_block q (4 * y + x) nz 16)) (fst st).
(** encode4.c:15-38 *)
Definition gather_partial4 (q m : list A) (p : Z) (nx ny nz nw : nat) (sx sy sz sw : Z) : option (list A) :=
  st <- for_ nw 0 (fun w st =>
          st <- for_ nz 0 (fun z st =>
                  st <- for_ ny 0 (fun y st =>
                          st <- for_ nx 0 (fun x st => put_at m sx (64 * w + 16 * z + 4 * y + x) st) st;
                          st <- on_block (fun q => pad_block q (64 * w + 16 * z + 4 * y) nx 1) st;
                          move (sy - Z.of_nat nx * sx) st) st;
                  st <- on_block (for_ 4 0 (fun x q => pad_block q (64 * w + 16 * z + x) ny 4)) st;
                  move (sz - Z.of_nat ny * sy) st) st;
          st <- on_block (for_ 4 0 (fun y => for_ 4 0 (fun x q => pad_block q (64 * w + 4 * y + x) nz 16))) st;
          move (sw - Z.of_nat nz * sz) st) (q, p);
  for_ 4 0 (fun z => for_ 4 0 (fun y => for_ 4 0 (fun x q => pad_block q (16 * z + 4 * y + x) nw 64))) (fst st).

(** *p = *q, p += sx, q++: memory, array pointer, block pointer *)
Definition store (q : list A) (sx : Z) (st : list A * Z * Z) : option (list A * Z * Z) :=
  let '(m, p, i) := st in v <- rd q i; m <- wr m p v; Some (m, p + sx, i + 1).
Definition move2 (v w : Z) (st : list A * Z * Z) : option (list A * Z * Z) :=
  let '(m, p, i) := st in Some (m, p + v, i + w).

(** scatter, decode1.c:3-10, decode2.c:3-11, decode3.c:3-12, decode4.c:3-13 *)
Definition scatter1 (q m : list A) (p sx : Z) : option (list A) :=
  st <- for_ 4 0 (fun x => store q sx) (m, p, 0); Some (fst (fst st)).
Definition scatter2 (q m : list A) (p sx sy : Z) : option (list A) :=
  st <- for_ 4 0 (fun y st =>
          st <- for_ 4 0 (fun x => store q sx) st; move2 (sy - 4 * sx) 0 st) (m, p, 0);
  Some (fst (fst st)).
Definition scatter3 (q m : list A) (p sx sy sz : Z) : option (list A) :=
  st <- for_ 4 0 (fun z st =>
          st <- for_ 4 0 (fun y st =>
                  st <- for_ 4 0 (fun x => store q sx) st; move2 (sy - 4 * sx) 0 st) st;
          move2 (sz - 4 * sy) 0 st) (m, p, 0);
  Some (fst (fst st)).
Definition scatter4 (q m : list A) (p sx sy sz sw : Z) : option (list A) :=
  st <- for_ 4 0 (fun w st =>
          st <- for_ 4 0 (fun z st =>
                  st <- for_ 4 0 (fun y st =>
                          st <- for_ 4 0 (fun x => store q sx) st; move2 (sy - 4 * sx) 0 st) st;
                  move2 (sz - 4 * sy) 0 st) st;
          move2 (sw - 4 * sz) 0 st) (m, p, 0);
  Some (fst (fst st)).

(** scatter_partial, decode1.c:12-19, decode2.c:13-21, decode3.c:14-23, decode4.c:15-25 *)
Definition scatter_partial1 (q m : list A) (p : Z) (nx : nat) (sx : Z) : option (list A) :=
  st <- for_ nx 0 (fun x => store q sx) (m, p, 0); Some (fst (fst st)).
Definition scatter_partial2 (q m : list A) (p : Z) (nx ny : nat) (sx sy : Z) : option (list A) :=
  st <- for_ ny 0 (fun y st =>
          st <- for_ nx 0 (fun x => store q sx) st;
          move2 (sy - Z.of_nat nx * sx) (4 - Z.of_nat nx) st) (m, p, 0);
  Some (fst (fst st)).
Definition scatter_partial3 (q m : list A) (p : Z) (nx ny nz : nat) (sx sy sz : Z) : option (list A) :=
  st <- for_ nz 0 (fun z st =>
          st <- for_ ny 0 (fun y st =>
                  st <- for_ nx 0 (fun x => store q sx) st;
                  move2 (sy - Z.of_nat nx * sx) (1 * (4 - Z.of_nat nx)) st) st;
          move2 (sz - Z.of_nat ny * sy) (4 * (4 - Z.of_nat ny)) st) (m, p, 0);
  Some (fst (fst st)).
Definition scatter_partial4 (q m : list A) (p : Z) (nx ny nz nw : nat) (sx sy sz sw : Z) : option (list A) :=
  st <- for_ nw 0 (fun w st =>
          st <- for_ nz 0 (fun z st =>
                  st <- for_ ny 0 (fun y st =>
                          st <- for_ nx 0 (fun x => store q sx) st;
                          move2 (sy - Z.of_nat nx * sx) (1 * (4 - Z.of_nat nx)) st) st;
                  move2 (sz - Z.of_nat ny * sy) (4 * (4 - Z.of_nat ny)) st) st;
          move2 (sw - Z.of_nat nz * sz) (16 * (4 - Z.of_nat nz)) st) (m, p, 0);
  Some (fst (fst st)).

(** zfp_field, zfp/include/zfp.h:169-174, without the scalar type; [fdata] is the pointer *)
Record field := mk_field { fnx : nat; fny : nat; fnz : nat; fnw : nat;
                           fsx : Z; fsy : Z; fsz : Z; fsw : Z; fdata : Z }.

(** conversion to int *)
Definition int32 (v : Z) : Z := let u := v mod 2 ^ 32 in if u <? 2 ^ 31 then u else u - 2 ^ 32.

(** the strides with their defaults, compress.c:39,61-62,84-86,110-113 and decompress.c,
    ompcompress.c (the same expressions) *)
Definition stride_x (f : field) : Z := if fsx f =? 0 then 1 else fsx f.
Definition stride_y (f : field) : Z := if fsy f =? 0 then int32 (Z.of_nat (fnx f)) else fsy f.
Definition stride_z (f : field) : Z := if fsz f =? 0 then int32 (Z.of_nat (fnx f) * Z.of_nat (fny f)) else fsz f.
Definition stride_w (f : field) : Z :=
  if fsw f =? 0 then int32 (Z.of_nat (fnx f) * Z.of_nat (fny f) * Z.of_nat (fnz f)) else fsw f.

(** zfp_field_dimensionality, zfp.c:185-189 *)
Definition zfp_field_dimensionality (f : field) : nat :=
  if (fnx f =? 0)%nat then 0 else if (fny f =? 0)%nat then 1 else if (fnz f =? 0)%nat then 2
  else if (fnw f =? 0)%nat then 3 else 4.

(** the return value of zfp_field_stride, zfp.c:230 *)
Definition strided (f : field) : bool :=
  negb (fsx f =? 0) || negb (fsy f =? 0) || negb (fsz f =? 0) || negb (fsw f =? 0).

Section Codec.
Variable enc : stream -> list A -> option stream.
Variable dec : stream -> stream * option (list A).
(** contents of the local block before it is filled; its values never matter *)
Variable junk : list A.

(** scalars n at p, in order: what zfp_encode_block reads through its pointer argument *)
Fixpoint load (m : list A) (p : Z) (n : nat) : option (list A) :=
  match n with
  | O => Some []
  | S k => v <- rd m p; r <- load m (p + 1) k; Some (v :: r)
  end.
(** what zfp_decode_block writes through its pointer argument *)
Fixpoint save (q : list A) (m : list A) (p : Z) : option (list A) :=
  match q with
  | [] => Some m
  | v :: r => m <- wr m p v; save r m (p + 1)
  end.

(** compress, compress.c:1-15; nx & ~3u is written 4 * (nx / 4) *)
Fixpoint compress1_full (k : nat) (m : list A) (data : Z) (s : stream) : option (Z * stream) :=
  match k with
  | O => Some (data, s)
  | S j => b <- load m data 4; s <- enc s b; compress1_full j m (data + 4) s
  end.
Definition compress1 (f : field) (m : list A) (s : stream) : option stream :=
  let nx := fnx f in
  let mx := (4 * (nx / 4))%nat in
  r <- compress1_full (mx / 4) m (fdata f) s;
  let '(data, s) := r in
  if (mx <? nx)%nat then b <- gather_partial1 junk m data (nx - mx) 1; enc s b else Some s.

(** zfp_encode_block_strided and zfp_encode_partial_block_strided at block origin (x, y, z, w)
    as compress_strided calls them, compress.c:44-51, 66-73, 90-98, 117-126 *)
Definition encode_at1 (f : field) (m : list A) (x : nat) (s : stream) : option stream :=
  let nx := fnx f in
  let p := fdata f + stride_x f * Z.of_nat x in
  b <- (if (nx - x <? 4)%nat then gather_partial1 junk m p (nx - x) (stride_x f)
        else gather1 m p (stride_x f));
  enc s b.
Definition encode_at2 (f : field) (m : list A) (x y : nat) (s : stream) : option stream :=
  let '(nx, ny) := (fnx f, fny f) in
  let p := fdata f + stride_x f * Z.of_nat x + stride_y f * Z.of_nat y in
  b <- (if ((nx - x <? 4) || (ny - y <? 4))%nat%bool
        then gather_partial2 junk m p (Nat.min (nx - x) 4) (Nat.min (ny - y) 4) (stride_x f) (stride_y f)
        else gather2 m p (stride_x f) (stride_y f));
  enc s b.
Definition encode_at3 (f : field) (m : list A) (x y z : nat) (s : stream) : option stream :=
  let '(nx, ny, nz) := (fnx f, fny f, fnz f) in
  let p := fdata f + stride_x f * Z.of_nat x + stride_y f * Z.of_nat y + stride_z f * Z.of_nat z in
  b <- (if ((nx - x <? 4) || (ny - y <? 4) || (nz - z <? 4))%nat%bool
        then gather_partial3 junk m p (Nat.min (nx - x) 4) (Nat.min (ny - y) 4) (Nat.min (nz - z) 4)
               (stride_x f) (stride_y f) (stride_z f)
        else gather3 m p (stride_x f) (stride_y f) (stride_z f));
  enc s b.
Definition encode_at4 (f : field) (m : list A) (x y z w : nat) (s : stream) : option stream :=
  let '(nx, ny, nz, nw) := (fnx f, fny f, fnz f, fnw f) in
  let p := fdata f + stride_x f * Z.of_nat x + stride_y f * Z.of_nat y + stride_z f * Z.of_nat z
           + stride_w f * Z.of_nat w in
  b <- (if ((nx - x <? 4) || (ny - y <? 4) || (nz - z <? 4) || (nw - w <? 4))%nat%bool
        then gather_partial4 junk m p (Nat.min (nx - x) 4) (Nat.min (ny - y) 4) (Nat.min (nz - z) 4)
               (Nat.min (nw - w) 4) (stride_x f) (stride_y f) (stride_z f) (stride_w f)
        else gather4 m p (stride_x f) (stride_y f) (stride_z f) (stride_w f));
  enc s b.

(** compress_strided, compress.c:35-52, 55-75, 77-100, 102-128 *)
Definition compress_strided1 (f : field) (m : list A) (s : stream) : option stream :=
  loop4 (fnx f) (fun x => encode_at1 f m x) s.
Definition compress_strided2 (f : field) (m : list A) (s : stream) : option stream :=
  loop4 (fny f) (fun y => loop4 (fnx f) (fun x => encode_at2 f m x y)) s.
Definition compress_strided3 (f : field) (m : list A) (s : stream) : option stream :=
  loop4 (fnz f) (fun z => loop4 (fny f) (fun y => loop4 (fnx f) (fun x => encode_at3 f m x y z))) s.
Definition compress_strided4 (f : field) (m : list A) (s : stream) : option stream :=
  loop4 (fnw f) (fun w => loop4 (fnz f) (fun z => loop4 (fny f) (fun y => loop4 (fnx f)
    (fun x => encode_at4 f m x y z w)))) s.

(** zfp_compress with the serial policy, zfp.c:838-906, up to the flush; None for a field
    without dimensions (ftable would be indexed with -1) *)
Definition compress (f : field) (m : list A) (s : stream) : option stream :=
  match zfp_field_dimensionality f with
  | 1 => if strided f then compress_strided1 f m s else compress1 f m s
  | 2 => compress_strided2 f m s
  | 3 => compress_strided3 f m s
  | 4 => compress_strided4 f m s
  | _ => None
  end%nat.

(** decompress, decompress.c:1-15; the state is the memory and the stream *)
Fixpoint decompress1_full (k : nat) (data : Z) (st : list A * stream) : option (Z * (list A * stream)) :=
  match k with
  | O => Some (data, st)
  | S j =>
      let '(m, s) := st in
      let '(s, b) := dec s in
      b <- b; m <- save b m data; decompress1_full j (data + 4) (m, s)
  end.
Definition decompress1 (f : field) (st : list A * stream) : option (list A * stream) :=
  let nx := fnx f in
  let mx := (4 * (nx / 4))%nat in
  r <- decompress1_full (mx / 4) (fdata f) st;
  let '(data, (m, s)) := r in
  if (mx <? nx)%nat then
    let '(s, b) := dec s in b <- b; m <- scatter_partial1 b m data (nx - mx) 1; Some (m, s)
  else Some (m, s).

(** zfp_decode_block_strided and zfp_decode_partial_block_strided as decompress_strided calls
    them, decompress.c:44-51, 66-73, 90-98, 117-126 *)
Definition decode_at1 (f : field) (x : nat) (st : list A * stream) : option (list A * stream) :=
  let nx := fnx f in
  let p := fdata f + stride_x f * Z.of_nat x in
  let '(m, s) := st in let '(s, b) := dec s in b <- b;
  m <- (if (nx - x <? 4)%nat then scatter_partial1 b m p (nx - x) (stride_x f)
        else scatter1 b m p (stride_x f));
  Some (m, s).
Definition decode_at2 (f : field) (x y : nat) (st : list A * stream) : option (list A * stream) :=
  let '(nx, ny) := (fnx f, fny f) in
  let p := fdata f + stride_x f * Z.of_nat x + stride_y f * Z.of_nat y in
  let '(m, s) := st in let '(s, b) := dec s in b <- b;
  m <- (if ((nx - x <? 4) || (ny - y <? 4))%nat%bool
        then scatter_partial2 b m p (Nat.min (nx - x) 4) (Nat.min (ny - y) 4) (stride_x f) (stride_y f)
        else scatter2 b m p (stride_x f) (stride_y f));
  Some (m, s).
Definition decode_at3 (f : field) (x y z : nat) (st : list A * stream) : option (list A * stream) :=
  let '(nx, ny, nz) := (fnx f, fny f, fnz f) in
  let p := fdata f + stride_x f * Z.of_nat x + stride_y f * Z.of_nat y + stride_z f * Z.of_nat z in
  let '(m, s) := st in let '(s, b) := dec s in b <- b;
  m <- (if ((nx - x <? 4) || (ny - y <? 4) || (nz - z <? 4))%nat%bool
        then scatter_partial3 b m p (Nat.min (nx - x) 4) (Nat.min (ny - y) 4) (Nat.min (nz - z) 4)
               (stride_x f) (stride_y f) (stride_z f)
        else scatter3 b m p (stride_x f) (stride_y f) (stride_z f));
  Some (m, s).
Definition decode_at4 (f : field) (x y z w : nat) (st : list A * stream) : option (list A * stream) :=
  let '(nx, ny, nz, nw) := (fnx f, fny f, fnz f, fnw f) in
  let p := fdata f + stride_x f * Z.of_nat x + stride_y f * Z.of_nat y + stride_z f * Z.of_nat z
           + stride_w f * Z.of_nat w in
  let '(m, s) := st in let '(s, b) := dec s in b <- b;
  m <- (if ((nx - x <? 4) || (ny - y <? 4) || (nz - z <? 4) || (nw - w <? 4))%nat%bool
        then scatter_partial4 b m p (Nat.min (nx - x) 4) (Nat.min (ny - y) 4) (Nat.min (nz - z) 4)
               (Nat.min (nw - w) 4) (stride_x f) (stride_y f) (stride_z f) (stride_w f)
        else scatter4 b m p (stride_x f) (stride_y f) (stride_z f) (stride_w f));
  Some (m, s).

(** decompress_strided, decompress.c:35-52, 55-75, 77-100, 102-128 *)
Definition decompress_strided1 (f : field) (st : list A * stream) : option (list A * stream) :=
  loop4 (fnx f) (fun x => decode_at1 f x) st.
Definition decompress_strided2 (f : field) (st : list A * stream) : option (list A * stream) :=
  loop4 (fny f) (fun y => loop4 (fnx f) (fun x => decode_at2 f x y)) st.
Definition decompress_strided3 (f : field) (st : list A * stream) : option (list A * stream) :=
  loop4 (fnz f) (fun z => loop4 (fny f) (fun y => loop4 (fnx f) (fun x => decode_at3 f x y z))) st.
Definition decompress_strided4 (f : field) (st : list A * stream) : option (list A * stream) :=
  loop4 (fnw f) (fun w => loop4 (fnz f) (fun z => loop4 (fny f) (fun y => loop4 (fnx f)
    (fun x => decode_at4 f x y z w)))) st.

(** zfp_decompress with the serial policy, zfp.c:908-965, up to the align *)
Definition decompress (f : field) (st : list A * stream) : option (list A * stream) :=
  match zfp_field_dimensionality f with
  | 1 => if strided f then decompress_strided1 f st else decompress1 f st
  | 2 => decompress_strided2 f st
  | 3 => decompress_strided3 f st
  | 4 => decompress_strided4 f st
  | _ => None
  end%nat.

(** ** Parallel compression *)

(** blocks per axis and in total, ompcompress.c:12, 56, 105-107, 158-161, 215-219; the
    32-bit wrap-around of the product is not modelled *)
Definition nblk (n : nat) : nat := ((n + 3) / 4)%nat.
Definition block_count (f : field) : nat :=
  match zfp_field_dimensionality f with
  | 1 => nblk (fnx f)
  | 2 => nblk (fnx f) * nblk (fny f)
  | 3 => nblk (fnx f) * nblk (fny f) * nblk (fnz f)
  | 4 => nblk (fnx f) * nblk (fny f) * nblk (fnz f) * nblk (fnw f)
  | _ => 0
  end%nat.

(** chunk_offset, share/parallel.c:4-8 *)
Definition chunk_offset (blocks chunks chunk : nat) : nat := (blocks * chunk / chunks)%nat.

(** chunk_count_omp, share/omp.c:17-24 *)
Definition chunk_count (chunk_size blocks threads : nat) : nat :=
  let chunks := if (chunk_size =? 0)%nat then threads else ((blocks + chunk_size - 1) / chunk_size)%nat in
  Nat.min chunks blocks.

(** encoding of block number b by a worker, ompcompress.c:29-41, 74-85, 127-139, 181-194, 241-255
    (1-D contiguous arrays load the full block directly) *)
Definition encode_index (f : field) (m : list A) (b : nat) (s : stream) : option stream :=
  let bx := nblk (fnx f) in let by_ := nblk (fny f) in let bz := nblk (fnz f) in
  match zfp_field_dimensionality f with
  | 1 =>
      let x := (4 * b)%nat in
      if strided f then encode_at1 f m x s
      else if (fnx f - x <? 4)%nat
      then q <- gather_partial1 junk m (fdata f + Z.of_nat x) (Nat.min (fnx f - x) 4) 1; enc s q
      else q <- load m (fdata f + Z.of_nat x) 4; enc s q
  | 2 => encode_at2 f m (4 * (b mod bx)) (4 * (b / bx)) s
  | 3 => encode_at3 f m (4 * (b mod bx)) (4 * (b / bx mod by_)) (4 * (b / bx / by_)) s
  | 4 => encode_at4 f m (4 * (b mod bx)) (4 * (b / bx mod by_)) (4 * (b / bx / by_ mod bz)) (4 * (b / bx / by_ / bz)) s
  | _ => None
  end%nat.

(** the work of one chunk, ompcompress.c:22-42 etc. *)
Definition encode_chunk (f : field) (m : list A) (chunks chunk : nat) (s : stream) : option stream :=
  let bmin := chunk_offset (block_count f) chunks (chunk + 0) in
  let bmax := chunk_offset (block_count f) chunks (chunk + 1) in
  for_ (bmax - bmin) bmin (fun b => encode_index f m b) s.

End Codec.
End Scalar.
