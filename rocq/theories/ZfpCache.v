(** Model of zfp's compressed arrays (zfp/array): the write-back cache of decompressed blocks
    (zfp/cache.h) and the 1-D, 2-D and 3-D arrays on top of it (zfparray.h, zfparray1.h,
    zfparray2.h, zfparray3.h).  Line numbers of the arrays are those of zfparray2.h unless a
    file is named.

    uint is a 32-bit unsigned integer.  [two_way] is ZFP_WITH_CACHE_TWOWAY and [fast_hash]
    ZFP_WITH_CACHE_FAST_HASH; profiling is not modelled.  [None] is undefined behaviour of the
    block coder or an access outside an array.  [enc] and [dec] stand for zfp_encode_block
    and zfp_decode_block of the scalar type and dimension at hand. *)
From Coq Require Import ZArith List Bool Arith.
From Verif Require Import Bitstream ZfpXform ZfpArray ZfpApi.
Import ListNotations.
Local Open Scope Z_scope.

(** ** Tags, cache.h:19-42 *)

(** Tag(Index x, bool d), cache.h:23 *)
Definition make_tag (x : Z) (d : bool) : Z := uint (2 * x + Z.b2z d).
(** index, dirty, used, mark, cache.h:26-35 *)
Definition tag_index (t : Z) : Z := Z.shiftr t 1.
Definition tag_dirty (t : Z) : bool := Z.odd t.
Definition tag_used (t : Z) : bool := negb (t =? 0).
Definition tag_mark (t : Z) : Z := Z.lor t 1.

(** ** The cache; a pointer to a line is its number *)
Record cache := mk_cache { mask : Z; tags : list Z; lines : list (list Z) }.

Definition tag_at (c : cache) (i : nat) : Z := nth i (tags c) 0.
Definition line_at (c : cache) (i : nat) : list Z := nth i (lines c) [].
Definition set_tag (c : cache) (i : nat) (t : Z) : cache := mk_cache (mask c) (upd (tags c) i t) (lines c).
Definition set_line (c : cache) (i : nat) (l : list Z) : cache := mk_cache (mask c) (tags c) (upd (lines c) i l).

(** clear, cache.h:191-195 *)
Definition cache_clear (c : cache) : cache := mk_cache (mask c) (map (fun _ => 0) (tags c)) (lines c).

(** the loop of resize, cache.h:129; 32 iterations fill every bit of the mask *)
Fixpoint mask_loop (fuel : nat) (mask : Z) : Z :=
  match fuel with
  | O => mask
  | S f => if Z.land mask (uint (mask + 1)) =? 0 then mask else mask_loop f (Z.lor mask (uint (mask + 1)))
  end.
Definition cache_mask (minsize : Z) : Z := mask_loop 32 (if minsize =? 0 then 1 else minsize - 1).
(** resize, cache.h:127-133; [junk] is what the new lines contain *)
Definition cache_resize (junk : list Z) (minsize : Z) : cache :=
  let m := cache_mask minsize in
  cache_clear (mk_cache m (repeat 1 (Z.to_nat (m + 1))) (repeat junk (Z.to_nat (m + 1)))).

Section Cache.
Variables two_way fast_hash : bool.

(** primary, cache.h:226 *)
Definition primary (c : cache) (x : Z) : nat := Z.to_nat (Z.land x (mask c)).
(** secondary, cache.h:227-245 *)
Definition hash (x : Z) : Z :=
  if fast_hash then
    let x := uint (x - Z.shiftl x 7) in
    let x := Z.lxor x (Z.shiftr x 16) in
    uint (x - Z.shiftl x 3)
  else
    let x := uint (x - Z.shiftl x 6) in
    let x := Z.lxor x (Z.shiftr x 17) in
    let x := uint (x - Z.shiftl x 9) in
    let x := Z.lxor x (uint (Z.shiftl x 4)) in
    let x := uint (x - Z.shiftl x 3) in
    let x := Z.lxor x (uint (Z.shiftl x 10)) in
    Z.lxor x (Z.shiftr x 15).
Definition secondary (c : cache) (x : Z) : nat := Z.to_nat (Z.land (hash x) (mask c)).

(** lookup, cache.h:137-148 *)
Definition lookup (c : cache) (x : Z) : option nat :=
  if tag_index (tag_at c (primary c x)) =? x then Some (primary c x)
  else if two_way && (tag_index (tag_at c (secondary c x)) =? x) then Some (secondary c x)
  else None.

(** access, cache.h:153-188: the tag returned, the line and the new cache *)
Definition access (c : cache) (x : Z) (write : bool) : Z * nat * cache :=
  let hit i := let c := if write then set_tag c i (tag_mark (tag_at c i)) else c in (tag_at c i, i, c) in
  let miss i := (tag_at c i, i, set_tag c i (make_tag x write)) in
  let i := primary c x in
  if tag_index (tag_at c i) =? x then hit i
  else if two_way then
    let j := secondary c x in
    if tag_index (tag_at c j) =? x then hit j
    else miss (if tag_used (tag_at c j) && (negb (tag_dirty (tag_at c i)) || tag_dirty (tag_at c j)) then i else j)
  else miss i.

(** ** The array *)
(** the fields of the array classes; [sizes] is nx, ny, nz as far as used; [blocks_per] is bx, by,
    bz; [shape] is None for the null pointer *)
Record array := mk_array { sizes : list nat; shape : option (list Z); acache : cache; astream : stream }.
Definition with_cache (a : array) (c : cache) : array := mk_array (sizes a) (shape a) c (astream a).
Definition with_stream (a : array) (s : stream) : array := mk_array (sizes a) (shape a) (acache a) s.

(** bx, by, bz, zfparray1.h:84, zfparray2.h:86-87, zfparray3.h:88-90 *)
Definition per4 (n : nat) : nat := ((n + 3) / 4)%nat.
(** blocks, zfparray1.h:85, zfparray2.h:88, zfparray3.h:91 *)
Definition blocks (ns : list nat) : nat :=
  match ns with
  | [nx] => per4 nx
  | [nx; ny] => per4 nx * per4 ny
  | [nx; ny; nz] => per4 nx * per4 ny * per4 nz
  | _ => 0
  end%nat.

(** i == bx - 1 ? -nx & 3u : 0 *)
Definition edge (n i : nat) : Z := if (i =? per4 n - 1)%nat then Z.land (uint (- Z.of_nat n)) 3 else 0.
(** the block dimensions, zfparray1.h:89-97, zfparray2.h:92-101, zfparray3.h:95-105 *)
Definition shapes (ns : list nat) : option (list Z) :=
  match ns with
  | [nx] =>
      if negb (Z.land (Z.of_nat nx) 3 =? 0) then Some (map (edge nx) (seq 0 (per4 nx))) else None
  | [nx; ny] =>
      if negb (Z.land (Z.lor (Z.of_nat nx) (Z.of_nat ny)) 3 =? 0)
      then Some (flat_map (fun j => map (fun i => edge nx i + 4 * edge ny j) (seq 0 (per4 nx))) (seq 0 (per4 ny)))
      else None
  | [nx; ny; nz] =>
      if negb (Z.land (Z.lor (Z.lor (Z.of_nat nx) (Z.of_nat ny)) (Z.of_nat nz)) 3 =? 0)
      then Some (flat_map (fun k => flat_map (fun j => map (fun i => edge nx i + 4 * (edge ny j + 4 * edge nz k))
             (seq 0 (per4 nx))) (seq 0 (per4 ny))) (seq 0 (per4 nz)))
      else None
  | _ => None
  end.

(** 4 - (shape & 3u); shape >>= 2, once per dimension, zfpcodecd.h:7-146, zfpcodecf.h:7-146 *)
Fixpoint widths (d : nat) (sh : Z) : list nat :=
  match d with O => [] | S e => Z.to_nat (4 - Z.land sh 3) :: widths e (Z.shiftr sh 2) end.
(** shape ? shape[index] : 0 *)
Definition shape_of (a : array) (b : nat) : Z := match shape a with Some l => nth b l 0 | None => 0 end.

Section Codec.
Variable W : nat.
Variable blkbits : nat.
Variable enc : stream -> list Z -> option stream.
Variable dec : stream -> stream * option (list Z).
(** contents of uninitialised memory: of a local block and of a new cache line *)
Variable junk : list Z.

(** zfp_encode_block or zfp_encode_partial_block_strided on a cache line, zfpcodecd.h:5-13, 27-36, 51-61 *)
Definition gather_line (l : list Z) (d : nat) (sh : Z) : option (list Z) :=
  if sh =? 0 then load Z l 0 (4 ^ d)
  else match widths d sh with
       | [nx] => gather_partial1 Z 0 junk l 0 nx 1
       | [nx; ny] => gather_partial2 Z 0 junk l 0 nx ny 1 4
       | [nx; ny; nz] => gather_partial3 Z 0 junk l 0 nx ny nz 1 4 16
       | _ => None
       end.
(** the strided variants, zfpcodecd.h:16-24, 39-48, 64-74 *)
Definition gather_array (m : list Z) (p : Z) (sh : Z) (ss : list Z) : option (list Z) :=
  if sh =? 0 then
    match ss with
    | [sx] => gather1 Z m p sx
    | [sx; sy] => gather2 Z m p sx sy
    | [sx; sy; sz] => gather3 Z m p sx sy sz
    | _ => None
    end
  else match widths (length ss) sh, ss with
       | [nx], [sx] => gather_partial1 Z 0 junk m p nx sx
       | [nx; ny], [sx; sy] => gather_partial2 Z 0 junk m p nx ny sx sy
       | [nx; ny; nz], [sx; sy; sz] => gather_partial3 Z 0 junk m p nx ny nz sx sy sz
       | _, _ => None
       end.
(** storing a decoded block in a cache line, zfpcodecd.h:77-85, 99-108, 123-133 *)
Definition scatter_line (q l : list Z) (d : nat) (sh : Z) : option (list Z) :=
  if sh =? 0 then save Z q l 0
  else match widths d sh with
       | [nx] => scatter_partial1 Z q l 0 nx 1
       | [nx; ny] => scatter_partial2 Z q l 0 nx ny 1 4
       | [nx; ny; nz] => scatter_partial3 Z q l 0 nx ny nz 1 4 16
       | _ => None
       end.
(** storing a decoded block in a strided array, zfpcodecd.h:88-96, 111-120, 136-146; copying a
    cache line there, CacheLine::get, zfparray1.h:169-186, zfparray2.h:185-205, zfparray3.h:194-217,
    runs the same loops *)
Definition scatter_array (q m : list Z) (p : Z) (sh : Z) (ss : list Z) : option (list Z) :=
  if sh =? 0 then
    match ss with
    | [sx] => scatter1 Z q m p sx
    | [sx; sy] => scatter2 Z q m p sx sy
    | [sx; sy; sz] => scatter3 Z q m p sx sy sz
    | _ => None
    end
  else match widths (length ss) sh, ss with
       | [nx], [sx] => scatter_partial1 Z q m p nx sx
       | [nx; ny], [sx; sy] => scatter_partial2 Z q m p nx ny sx sy
       | [nx; ny; nz], [sx; sy; sz] => scatter_partial3 Z q m p nx ny nz sx sy sz
       | _, _ => None
       end.

Definition adim (a : array) : nat := length (sizes a).

(** encode, zfparray2.h:258-263 and 266-271, after the block has been gathered *)
Definition encode (a : array) (b : nat) (v : list Z) : option array :=
  s <- enc (stream_wseek W (astream a) (b * blkbits)) v;
  Some (with_stream a (snd (stream_flush W s))).
Definition encode_line (a : array) (b : nat) (l : list Z) : option array :=
  v <- gather_line l (adim a) (shape_of a b); encode a b v.
Definition encode_array (a : array) (b : nat) (m : list Z) (p : Z) (ss : list Z) : option array :=
  v <- gather_array m p (shape_of a b) ss; encode a b v.

(** decode, zfparray2.h:274-278 and 281-285 *)
Definition decode (a : array) (b : nat) : option (list Z * array) :=
  let '(s, q) := dec (stream_rseek W (astream a) (b * blkbits)) in
  q <- q; Some (q, with_stream a s).
(** into cache line i *)
Definition decode_line (a : array) (b : nat) (i : nat) : option array :=
  r <- decode a b;
  let '(q, a) := r in
  l <- scatter_line q (line_at (acache a) i) (adim a) (shape_of a b);
  Some (with_cache a (set_line (acache a) i l)).
(** into an array in memory *)
Definition decode_array (a : array) (b : nat) (m : list Z) (p : Z) (ss : list Z) : option (list Z * array) :=
  r <- decode a b;
  let '(q, a) := r in
  m <- scatter_array q m p (shape_of a b) ss; Some (m, a).

(** block, zfparray1.h:269, zfparray2.h:288, zfparray3.h:300 *)
Definition block (ns cs : list nat) : nat :=
  match ns, cs with
  | _, [i] => i / 4
  | nx :: _, [i; j] => i / 4 + per4 nx * (j / 4)
  | nx :: ny :: _, [i; j; k] => i / 4 + per4 nx * (j / 4 + per4 ny * (k / 4))
  | _, _ => 0
  end%nat.
(** CacheLine::index, zfparray1.h:188, zfparray2.h:207, zfparray3.h:219; i & 3u is i mod 4 *)
Definition index (cs : list nat) : nat :=
  match cs with
  | [i] => i mod 4
  | [i; j] => i mod 4 + 4 * (j mod 4)
  | [i; j; k] => i mod 4 + 4 * (j mod 4 + 4 * (k mod 4))
  | _ => 0
  end%nat.

(** line, zfparray2.h:241-255 *)
Definition line (a : array) (cs : list nat) (write : bool) : option (nat * array) :=
  let b := block (sizes a) cs in
  let '(t, i, c) := access (acache a) (Z.of_nat b + 1) write in
  let a := with_cache a c in
  let c := uint (tag_index t - 1) in
  if negb (c =? Z.of_nat b) then
    a <- (if tag_dirty t then encode_line a (Z.to_nat c) (line_at (acache a) i) else Some a);
    a <- decode_line a b i;
    Some (i, a)
  else Some (i, a).

(** get, zfparray2.h:221-225 *)
Definition get (a : array) (cs : list nat) : option (Z * array) :=
  r <- line a cs false;
  let '(i, a) := r in Some (nth (index cs) (line_at (acache a) i) 0, a).
(** set, add, sub, mul and div, zfparray2.h:228-238: the old value x becomes f x *)
Definition update (a : array) (cs : list nat) (f : Z -> Z) : option array :=
  r <- line a cs true;
  let '(i, a) := r in
  let l := line_at (acache a) i in
  Some (with_cache a (set_line (acache a) i (upd l (index cs) (f (nth (index cs) l 0))))).

(** flush_cache, zfparray2.h:119-128; the iterator, cache.h:45-85, stops at the used lines *)
Definition flush_cache (a : array) : option array :=
  for_ (Z.to_nat (mask (acache a) + 1)) 0 (fun i a =>
    let t := tag_at (acache a) i in
    if tag_used t then
      a <- (if tag_dirty t then encode_line a (Z.to_nat (uint (tag_index t - 1))) (line_at (acache a) i) else Some a);
      Some (with_cache a (set_tag (acache a) i 0))
    else Some a) a.

(** lines, zfparray1.h:272-276, zfparray2.h:299-303, zfparray3.h:313-317; [size] is sizeof(Scalar) *)
Definition line_count (size csize : Z) (ns : list nat) : Z :=
  let bytes := size * 4 ^ Z.of_nat (length ns) in
  let wanted := match ns with
    | [nx] => 8
    | [nx; ny] => uint (8 * Z.of_nat nx)
    | [nx; ny; nz] => uint (8 * Z.of_nat nx * Z.of_nat ny)
    | _ => 0
    end * size in
  Z.max (uint (((if csize =? 0 then wanted else csize) + bytes - 1) / bytes)) 1.
(** set_cache_size, zfparray2.h:109-113 *)
Definition set_cache_size (size csize : Z) (a : array) : option array :=
  a <- flush_cache a;
  Some (with_cache a (cache_resize junk (line_count size csize (sizes a)))).

(** the loops over the blocks of get and set, zfparray1.h:127-147, zfparray2.h:131-152,
    zfparray3.h:135-158; the state is the pointer, the block number and whatever the body changes *)
Definition each_block {S : Type} (ns : list nat) (body : Z -> nat -> S -> option S) (p : Z) (s : S) : option S :=
  let step := fun (_ : nat) (st : Z * nat * S) => let '(p, b, s) := st in s <- body p b s; Some (p + 4, (b + 1)%nat, s) in
  let skip := fun (v : Z) (st : Z * nat * S) => let '(p, b, s) := st in Some (p + v, b, s) in
  r <- match ns with
       | [nx] => for_ (per4 nx) 0 step (p, 0%nat, s)
       | [nx; ny] =>
           for_ (per4 ny) 0 (fun _ st =>
             st <- for_ (per4 nx) 0 step st;
             skip (4 * (Z.of_nat nx - Z.of_nat (per4 nx))) st) (p, 0%nat, s)
       | [nx; ny; nz] =>
           for_ (per4 nz) 0 (fun _ st =>
             st <- for_ (per4 ny) 0 (fun _ st =>
               st <- for_ (per4 nx) 0 step st;
               skip (4 * (Z.of_nat nx - Z.of_nat (per4 nx))) st) st;
             skip (4 * Z.of_nat nx * (Z.of_nat ny - Z.of_nat (per4 ny))) st) (p, 0%nat, s)
       | _ => None
       end;
  Some (snd r).
(** 1, nx, nx * ny *)
Definition strides (ns : list nat) : list Z :=
  match ns with
  | [nx] => [1]
  | [nx; ny] => [1; Z.of_nat nx]
  | [nx; ny; nz] => [1; Z.of_nat nx; Z.of_nat nx * Z.of_nat ny]
  | _ => []
  end.
(** get(p), zfparray2.h:131-142: the memory and the array *)
Definition get_all (a : array) (m : list Z) (p : Z) : option (list Z * array) :=
  each_block (sizes a) (fun p b st =>
    let '(m, a) := st in
    match lookup (acache a) (Z.of_nat b + 1) with
    | Some i => m <- scatter_array (line_at (acache a) i) m p (shape_of a b) (strides (sizes a)); Some (m, a)
    | None => decode_array a b m p (strides (sizes a))
    end) p (m, a).
(** set(p), zfparray2.h:145-152 *)
Definition set_all (a : array) (m : list Z) (p : Z) : option array :=
  a <- each_block (sizes a) (fun p b a => encode_array a b m p (strides (sizes a))) p a;
  Some (with_cache a (cache_clear (acache a))).
(** clear_cache, zfparray2.h:116 *)
Definition clear_cache (a : array) : array := with_cache a (cache_clear (acache a)).
(** resize with clear = true and no size 0, zfparray2.h:79-103, and alloc, zfparray.h:94-103 *)
Definition resize (c : cache) (ns : list nat) : array :=
  mk_array ns (shapes ns) (cache_clear c) (stream_open (repeat 0 (blocks ns * blkbits / W)%nat)).
(** the constructor without initial data, zfparray2.h:31-39 *)
Definition new_array (size csize : Z) (ns : list nat) : array :=
  resize (cache_resize junk (line_count size csize ns)) ns.
(** compressed_data, zfparray.h:82-87 *)
Definition compressed_data (a : array) : option (list Z * array) :=
  a <- flush_cache a; Some (mem (astream a), a).

(** conversion of a flat index, zfparray2.h:291-296, zfparray3.h:303-310 *)
Definition unflatten (ns : list nat) (i : nat) : list nat :=
  match ns with
  | [nx] => [i]
  | [nx; ny] => [i mod nx; i / nx]
  | [nx; ny; nz] => [i mod nx; i / nx mod ny; i / nx / ny]
  | _ => []
  end%nat.

(** what a program can do with an array, and what it observes *)
Inductive op :=
  | Get (cs : list nat)
  | Update (cs : list nat) (f : Z -> Z)
  | GetFlat (i : nat)
  | UpdateFlat (i : nat) (f : Z -> Z)
  | Flush
  | Clear
  | CacheSize (csize : Z)
  | GetAll (m : list Z) (p : Z)
  | SetAll (m : list Z) (p : Z)
  | Resize (ns : list nat)
  | Data.
Inductive out := Nothing | Value (v : Z) | Memory (m : list Z) | Words (m : list Z).

Variable size : Z.  (* sizeof(Scalar) *)
Definition perform (a : array) (o : op) : option (out * array) :=
  match o with
  | Get cs => r <- get a cs; Some (Value (fst r), snd r)
  | Update cs f => a <- update a cs f; Some (Nothing, a)
  | GetFlat i => r <- get a (unflatten (sizes a) i); Some (Value (fst r), snd r)
  | UpdateFlat i f => a <- update a (unflatten (sizes a) i) f; Some (Nothing, a)
  | Flush => a <- flush_cache a; Some (Nothing, a)
  | Clear => Some (Nothing, clear_cache a)
  | CacheSize n => a <- set_cache_size size n a; Some (Nothing, a)
  | GetAll m p => r <- get_all a m p; Some (Memory (fst r), snd r)
  | SetAll m p => a <- set_all a m p; Some (Nothing, a)
  | Resize ns => Some (Nothing, resize (acache a) ns)
  | Data => r <- compressed_data a; Some (Words (fst r), snd r)
  end.
Fixpoint run (a : array) (os : list op) : option (list out * array) :=
  match os with
  | [] => Some ([], a)
  | o :: r => x <- perform a o; let '(y, a) := x in z <- run a r; let '(ys, a) := z in Some (y :: ys, a)
  end.
End Codec.
End Cache.
