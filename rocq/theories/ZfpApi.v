(** Model of the public API of zfp that is independent of the codec: compression parameters,
    modes, headers, size bounds and integer promotion (zfp/src/zfp.c).

    uint is a 32-bit unsigned integer, int a 32-bit signed one, size_t and uint64 have 64 bits. *)
From Coq Require Import ZArith List Bool Arith.
From Verif Require Import Bitstream ZfpCodec ZfpXform ZfpArray ZfpFloat.
Import ListNotations.
Local Open Scope Z_scope.

Definition uint (v : Z) : Z := v mod 2 ^ 32.

(** zfp_type, include/zfp.h:160-166 *)
Inductive ztype := t_none | t_int32 | t_int64 | t_float | t_double.
Definition type_code (t : ztype) : Z :=
  match t with t_none => 0 | t_int32 => 1 | t_int64 => 2 | t_float => 3 | t_double => 4 end.
(** the enumerator with a given value, 1..4; the cast in zfp.c:362 only produces these *)
Definition code_type (c : Z) : ztype :=
  if c =? 1 then t_int32 else if c =? 2 then t_int64 else if c =? 3 then t_float else if c =? 4 then t_double else t_none.
(** type_precision, zfp.c:14-29 *)
Definition type_precision (t : ztype) : Z :=
  match t with t_none => 0 | t_int32 | t_float => 32 | t_int64 | t_double => 64 end.

(** the parameters of zfp_stream, include/zfp.h:138-148 *)
Record params := mk_params { minbits : Z; maxbits : Z; maxprec : Z; minexp : Z }.

(** include/zfp.h:96-99 *)
Definition ZFP_MIN_BITS := 1.
Definition ZFP_MAX_BITS := 16651.
Definition ZFP_MAX_PREC := 64.
Definition ZFP_MIN_EXP := -1074.
(** include/zfp.h:108-113 *)
Definition ZFP_MAGIC_BITS := 32%nat.
Definition ZFP_META_BITS := 52%nat.
Definition ZFP_MODE_SHORT_BITS := 12%nat.
Definition ZFP_MODE_LONG_BITS := 64%nat.
Definition ZFP_HEADER_MAX_BITS := 148.
Definition ZFP_MODE_SHORT_MAX := 4094.

(** zfp_stream_open, zfp.c:397-410 *)
Definition default_params := mk_params ZFP_MIN_BITS ZFP_MAX_BITS ZFP_MAX_PREC ZFP_MIN_EXP.

(** zfp_mode, include/zfp.h:151-157 *)
Inductive zmode := mode_null | mode_expert | mode_fixed_rate | mode_fixed_precision | mode_fixed_accuracy.

(** zfp_stream_compression_mode, zfp.c:424-459 *)
Definition compression_mode (p : params) : zmode :=
  if (maxbits p <? minbits p) || negb ((0 <? maxprec p) && (maxprec p <=? 64)) then mode_null
  else if (minbits p =? ZFP_MIN_BITS) && (maxbits p =? ZFP_MAX_BITS) && (maxprec p =? ZFP_MAX_PREC) && (minexp p =? ZFP_MIN_EXP)
  then mode_expert
  else if (minbits p =? maxbits p) && (1 <=? maxbits p) && (maxbits p <=? ZFP_MAX_BITS) && (ZFP_MAX_PREC <=? maxprec p) && (minexp p <=? ZFP_MIN_EXP)
  then mode_fixed_rate
  else if (minbits p <=? ZFP_MIN_BITS) && (ZFP_MAX_BITS <=? maxbits p) && (1 <=? maxprec p) && (minexp p <=? ZFP_MIN_EXP)
  then mode_fixed_precision
  else if (minbits p <=? ZFP_MIN_BITS) && (ZFP_MAX_BITS <=? maxbits p) && (ZFP_MAX_PREC <=? maxprec p) && (ZFP_MIN_EXP <=? minexp p)
  then mode_fixed_accuracy
  else mode_expert.

(** the part of zfp_stream_mode that encodes each parameter separately, zfp.c:499-510;
    zfp->minexp + 16495 is assumed not to overflow (minexp < 2^31 - 16495) *)
Definition long_mode (p : params) : Z :=
  let mb := Z.max 1 (Z.min (minbits p) 0x8000) - 1 in
  let xb := Z.max 1 (Z.min (maxbits p) 0x8000) - 1 in
  let mp := Z.max 1 (Z.min (maxprec p) 0x80) - 1 in
  let me := Z.max 0 (Z.min (minexp p + 16495) 0x7fff) in
  let mode := me in
  let mode := u64 (u64 (Z.shiftl mode 7) + mp) in
  let mode := u64 (u64 (Z.shiftl mode 15) + xb) in
  let mode := u64 (u64 (Z.shiftl mode 15) + mb) in
  u64 (u64 (Z.shiftl mode 12) + 0xfff).

(** zfp_stream_mode, zfp.c:461-511 *)
Definition stream_mode (p : params) : Z :=
  match compression_mode p with
  | mode_fixed_rate => if maxbits p <=? 2048 then maxbits p - 1 else long_mode p
  | mode_fixed_precision => if maxprec p <=? 128 then (maxprec p - 1) + 2048 else long_mode p
  | mode_fixed_accuracy => if minexp p <=? 843 then (minexp p - ZFP_MIN_EXP) + (2048 + 128 + 1) else long_mode p
  | _ => long_mode p
  end.

(** zfp_stream_set_params, zfp.c:667-677: success flag and new parameters *)
Definition set_params (old : params) (mb xb mp me : Z) : bool * params :=
  if (xb <? mb) || negb ((0 <? mp) && (mp <=? 64)) then (false, old)
  else (true, mk_params mb xb mp me).

(** zfp_stream_set_mode, zfp.c:623-665 *)
Definition set_mode (old : params) (mode : Z) : zmode * params :=
  let '(mb, xb, mp, me) :=
    if mode <=? ZFP_MODE_SHORT_MAX then
      if mode <? 2048 then (mode + 1, mode + 1, ZFP_MAX_PREC, ZFP_MIN_EXP)
      else if mode <? 2048 + 128 then (ZFP_MIN_BITS, ZFP_MAX_BITS, mode + 1 - 2048, ZFP_MIN_EXP)
      else (ZFP_MIN_BITS, ZFP_MAX_BITS, ZFP_MAX_PREC, int32 (uint mode + ZFP_MIN_EXP - (2048 + 128 + 1)))
    else
      let mode := Z.shiftr mode 12 in let mb := Z.land (uint mode) 0x7fff + 1 in
      let mode := Z.shiftr mode 15 in let xb := Z.land (uint mode) 0x7fff + 1 in
      let mode := Z.shiftr mode 15 in let mp := Z.land (uint mode) 0x7f + 1 in
      let mode := Z.shiftr mode 7 in let me := int32 (Z.land (uint mode) 0x7fff - 16495) in
      (mb, xb, mp, me) in
  let '(ok, p) := set_params old mb xb mp me in
  (if ok then compression_mode p else mode_null, p).

(** zfp_stream_set_precision, zfp.c:597-605: the value returned and the new parameters *)
Definition set_precision (precision : Z) : Z * params :=
  let mp := if precision =? 0 then ZFP_MAX_PREC else Z.min precision ZFP_MAX_PREC in
  (mp, mk_params ZFP_MIN_BITS ZFP_MAX_BITS mp ZFP_MIN_EXP).

(** zfp_stream_set_accuracy, zfp.c:607-621.  The tolerance is the double k * 2^-1074; frexp
    gives the e with 2^(e-1) <= tolerance < 2^e.  The value returned is in the same unit
    (ldexp(1.0, emin) is exact because emin >= -1074). *)
Definition set_accuracy (k : Z) : Z * params :=
  let emin := if 0 <? k then (Z.log2 k + 1 - 1074) - 1 else ZFP_MIN_EXP in
  (if 0 <? k then 2 ^ (emin + 1074) else 0, mk_params ZFP_MIN_BITS ZFP_MAX_BITS ZFP_MAX_PREC emin).

Section Wsize.
Variable W : nat.   (* stream_word_bits *)

(** zfp_stream_set_rate, zfp.c:570-595.  The rate is the double k * 2^-1074 (k >= 0).
    n * rate is exact because n is a power of two (overflow to infinity is outside the
    range and gives None like every value not representable as uint); adding 0.5 rounds to
    nearest.  The value returned is the number of bits; C divides it by n. *)
Definition set_rate (k : Z) (t : ztype) (dims : nat) (wra : bool) : option (Z * params) :=
  let n := 2 ^ (2 * Z.of_nat dims) in
  let bits := rne 53 (n * k + 2 ^ 1073) / 2 ^ 1074 in
  if 2 ^ 32 <=? bits then None else
  let bits := match t with t_float => Z.max bits 9 | t_double => Z.max bits 12 | _ => bits end in
  let bits := if wra then Z.ldiff (uint (bits + Z.of_nat W - 1)) (Z.of_nat W - 1) else bits in
  Some (bits, mk_params bits bits ZFP_MAX_PREC ZFP_MIN_EXP).

(** zfp_stream_maximum_size, zfp.c:531-562 *)
Definition size_t (v : Z) : Z := v mod 2 ^ 64.
Definition maximum_size (p : params) (t : ztype) (f : field) : Z :=
  let dims := Z.of_nat (zfp_field_dimensionality f) in
  let m4 n := uint (Z.max (Z.of_nat n) 1 + 3) / 4 in
  let blocks := size_t (size_t (size_t (m4 (fnx f) * m4 (fny f)) * m4 (fnz f)) * m4 (fnw f)) in
  let values := 2 ^ (2 * dims) in
  if dims =? 0 then 0
  else match t with
  | t_none => 0
  | _ =>
      let mb := match t with t_float => 1 + 8 | t_double => 1 + 11 | _ => 1 end in
      let mb := mb + (values - 1 + values * Z.min (maxprec p) (type_precision t)) in
      let mb := Z.min mb (maxbits p) in
      let mb := Z.max mb (minbits p) in
      Z.ldiff (size_t (ZFP_HEADER_MAX_BITS + size_t (blocks * mb) + Z.of_nat W - 1)) (Z.of_nat W - 1) / 8
  end.

(** zfp_field_metadata, zfp.c:232-263 *)
Definition push (meta : Z) (k : Z) (v : Z) : Z := u64 (u64 (Z.shiftl meta k) + uint v).
Definition metadata (t : ztype) (f : field) : Z :=
  let n v := Z.of_nat v - 1 in
  let meta := 0 in
  let meta := match zfp_field_dimensionality f with
    | 1%nat => push meta 48 (n (fnx f))
    | 2%nat => push (push meta 24 (n (fny f))) 24 (n (fnx f))
    | 3%nat => push (push (push meta 16 (n (fnz f))) 16 (n (fny f))) 16 (n (fnx f))
    | 4%nat => push (push (push (push meta 12 (n (fnw f))) 12 (n (fnz f))) 12 (n (fny f))) 12 (n (fnx f))
    | _ => meta
    end in
  let meta := push meta 2 (Z.of_nat (zfp_field_dimensionality f) - 1) in
  push meta 2 (type_code t - 1).

(** zfp_field_set_metadata, zfp.c:357-392; sizes are uint *)
Definition set_metadata (f : field) (meta : Z) : ztype * field :=
  let t := code_type (Z.land meta 3 + 1) in let meta := Z.shiftr meta 2 in
  let dims := Z.land meta 3 + 1 in let meta := Z.shiftr meta 2 in
  let dim mask v := Z.to_nat (uint (Z.land v mask + 1)) in
  let mk nx ny nz nw := mk_field nx ny nz nw 0 0 0 0 (fdata f) in
  (t,
   if dims =? 1 then mk (dim 0xffffffff meta) 0%nat 0%nat 0%nat
   else if dims =? 2 then mk (dim 0xffffff meta) (dim 0xffffff (Z.shiftr meta 24)) 0%nat 0%nat
   else if dims =? 3 then mk (dim 0xffff meta) (dim 0xffff (Z.shiftr meta 16)) (dim 0xffff (Z.shiftr meta 32)) 0%nat
   else mk (dim 0xfff meta) (dim 0xfff (Z.shiftr meta 12)) (dim 0xfff (Z.shiftr meta 24)) (dim 0xfff (Z.shiftr meta 36))).

(** zfp_write_header, zfp.c:967-993; the mask as three booleans *)
Record hmask := mk_hmask { h_magic : bool; h_meta : bool; h_mode : bool }.
Definition codec_version := 5.   (* include/zfp.h:81 *)
Definition wr_bits (n : nat) (v : Z) (s : stream) : stream := snd (stream_write_bits W s v n).
Definition write_header (p : params) (t : ztype) (f : field) (mask : hmask) (s : stream) : nat * stream :=
  let '(bits, s) :=
    if h_magic mask then
      (ZFP_MAGIC_BITS, wr_bits 8 codec_version (wr_bits 8 112 (wr_bits 8 102 (wr_bits 8 122 s))))
    else (0%nat, s) in
  let '(bits, s) :=
    if h_meta mask then ((bits + ZFP_META_BITS)%nat, wr_bits ZFP_META_BITS (metadata t f) s) else (bits, s) in
  if h_mode mask then
    let mode := stream_mode p in
    let size := if ZFP_MODE_SHORT_MAX <? mode then ZFP_MODE_LONG_BITS else ZFP_MODE_SHORT_BITS in
    ((bits + size)%nat, wr_bits size mode s)
  else (bits, s).

(** zfp_read_header, zfp.c:995-1023: bits read (0 on failure), parameters, type, field, stream.
    The || of the magic check stops at the first mismatch. *)
Definition read_magic (s : stream) : bool * stream :=
  let '(c, s) := stream_read_bits W s 8 in
  if negb (c =? 122) then (false, s) else
  let '(c, s) := stream_read_bits W s 8 in
  if negb (c =? 102) then (false, s) else
  let '(c, s) := stream_read_bits W s 8 in
  if negb (c =? 112) then (false, s) else
  let '(c, s) := stream_read_bits W s 8 in
  (c =? codec_version, s).
Definition read_header (p : params) (t : ztype) (f : field) (mask : hmask) (s : stream)
  : nat * params * ztype * field * stream :=
  let '(ok, bits, s) :=
    if h_magic mask then let '(ok, s) := read_magic s in (ok, ZFP_MAGIC_BITS, s) else (true, 0%nat, s) in
  if negb ok then (0%nat, p, t, f, s) else
  let '(bits, t, f, s) :=
    if h_meta mask then
      let '(meta, s) := stream_read_bits W s ZFP_META_BITS in
      let '(t, f) := set_metadata f meta in ((bits + ZFP_META_BITS)%nat, t, f, s)
    else (bits, t, f, s) in
  if h_mode mask then
    let '(mode, s) := stream_read_bits W s ZFP_MODE_SHORT_BITS in
    let bits := (bits + ZFP_MODE_SHORT_BITS)%nat in
    let '(bits, mode, s) :=
      if ZFP_MODE_SHORT_MAX <? mode then
        let size := (ZFP_MODE_LONG_BITS - ZFP_MODE_SHORT_BITS)%nat in
        let '(v, s) := stream_read_bits W s size in
        ((bits + size)%nat, u64 (mode + u64 (Z.shiftl v (Z.of_nat ZFP_MODE_SHORT_BITS))), s)
      else (bits, mode, s) in
    match set_mode p mode with
    | (mode_null, p) => (0%nat, p, t, f, s)
    | (_, p) => (bits, p, t, f, s)
    end
  else (bits, p, t, f, s).
End Wsize.

(** zfp_promote_*_to_int32, zfp.c:764-794, over the 4^dims values of a block.  A left shift
    of a negative int is modelled as the multiplication every compiler implements. *)
Definition promote_int8 (b : list Z) : list Z := map (fun i => i * 2 ^ 23) b.
Definition promote_uint8 (b : list Z) : list Z := map (fun i => (i - 0x80) * 2 ^ 23) b.
Definition promote_int16 (b : list Z) : list Z := map (fun i => i * 2 ^ 15) b.
Definition promote_uint16 (b : list Z) : list Z := map (fun i => (i - 0x8000) * 2 ^ 15) b.
(** zfp_demote_int32_to_*, zfp.c:796-834; >> of a negative int is arithmetic *)
Definition demote_int8 (b : list Z) : list Z := map (fun i => Z.max (-0x80) (Z.min (Z.shiftr i 23) 0x7f)) b.
Definition demote_uint8 (b : list Z) : list Z := map (fun i => Z.max 0 (Z.min (Z.shiftr i 23 + 0x80) 0xff)) b.
Definition demote_int16 (b : list Z) : list Z := map (fun i => Z.max (-0x8000) (Z.min (Z.shiftr i 15) 0x7fff)) b.
Definition demote_uint16 (b : list Z) : list Z := map (fun i => Z.max 0 (Z.min (Z.shiftr i 15 + 0x8000) 0xffff)) b.
