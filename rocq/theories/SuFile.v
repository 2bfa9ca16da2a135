(** Reading and writing seismic data files: utils/readData.c, utils/writeData.c,
    utils/getFileInfo.c and the reading and reciprocity parts of marchenko/readShotData.c.
    Definitions only.

    A file is a sequence of bytes with a position.  A sample is its four bytes.  Byte order is
    little endian, as on the machines the programs are run on.  Not modelled: input from a pipe,
    conversion of the 4-byte header floats (the parameter f32) and rounding of floats (quotients
    are rational numbers). *)
From Coq Require Import ZArith QArith Qabs List Bool.
From Verif Require Import Marchenko FdKernels.
Import ListNotations.
Local Open Scope Z_scope.

(** fread, fseek on a regular file (C library) *)
Record file := mkFile { f_bytes : list Z; f_pos : Z }.
Definition f_size (f : file) : Z := Z.of_nat (length (f_bytes f)).
(** the bytes read, the number of complete items, the file afterwards *)
Definition fread (size nmemb : Z) (f : file) : list Z * Z * file :=
  let got := Z.min (size * nmemb) (Z.max 0 (f_size f - f_pos f)) in
  (firstn (Z.to_nat got) (skipn (Z.to_nat (f_pos f)) (f_bytes f)), got / size, mkFile (f_bytes f) (f_pos f + got)).
(** a position before the start of the file is an error, the position is kept *)
Definition fseek_to (p : Z) (f : file) : file := if p <? 0 then f else mkFile (f_bytes f) p.
Definition fseek_set (off : Z) (f : file) : file := fseek_to off f.
Definition fseek_cur (off : Z) (f : file) : file := fseek_to (f_pos f + off) f.
Definition fseek_end (off : Z) (f : file) : file := fseek_to (f_size f + off) f.
(** fread of bs into a buffer that held old *)
Definition overlay (old bs : list Z) : list Z := bs ++ skipn (length bs) old.

(** utils/segy.h:29 *)
Definition TRCBYTES : Z := 240.
(** header words in native (little endian) byte order *)
Fixpoint le (bs : list Z) : Z := match bs with [] => 0 | b :: r => b + 256 * le r end.
Definition word (off n : nat) (h : list Z) : Z := le (firstn n (skipn off h)).
Definition signed (bits v : Z) : Z := if 2 ^ (bits - 1) <=? v then v - 2 ^ bits else v.
Definition s32 (off : nat) (h : list Z) : Z := signed 32 (word off 4 h).
Definition s16 (off : nat) (h : list Z) : Z := signed 16 (word off 2 h).
Definition u16 (off : nat) (h : list Z) : Z := word off 2 h.
(** utils/segy.h:35-: offsets of the words used *)
Definition h_fldr := s32 8.
Definition h_trid := s16 28.
Definition h_selev := s32 44.
Definition h_scalel := s16 68.
Definition h_scalco := s16 70.
Definition h_sx := s32 72.
Definition h_gx := s32 80.
Definition h_delrt := s16 108.
Definition h_ns := u16 114.
Definition h_dt := u16 116.
Definition h_trwf := s16 168.
Definition at_d1 : nat := 180.
Definition at_f1 : nat := 184.
Definition at_d2 : nat := 188.
Definition at_f2 : nat := 192.

(** the result of a call: a value, a failed assertion, or a loop that did not end *)
Inductive outcome (A : Type) : Type := Ret (a : A) | Abort | Endless.
Arguments Ret {A} a.
Arguments Abort {A}.
Arguments Endless {A}.

(** samples are stored in the array data from element a *)
Definition store_samples (data : Z -> list Z) (a : Z) (bs : list Z) : Z -> list Z :=
  fun i => if (a <=? i) && (i <? a + Z.of_nat (length bs) / 4) then firstn 4 (skipn (Z.to_nat (4 * (i - a))) bs) else data i.

(** readData.c:29-43: the loop over the traces of a shot record *)
Fixpoint readData_loop (fuel : nat) (n1 sx fldr itrace : Z) (data hdrs : Z -> list Z) (f : file) : outcome (Z * (Z -> list Z) * (Z -> list Z) * file) :=
  match fuel with
  | O => Endless
  | S fuel =>
    let '(bs, nread, f1) := fread 4 n1 f in
    if negb (nread =? n1) then Abort else
    let data := store_samples data (itrace * n1) bs in
    let itrace := itrace + 1 in
    let '(hb, nread, f2) := fread 1 TRCBYTES f1 in
    if nread =? 0 then Ret (itrace, data, hdrs, f2) else
    if negb (nread =? TRCBYTES) then Abort else
    if negb (sx =? h_sx hb) || negb (fldr =? h_fldr hb) then Ret (itrace, data, hdrs, fseek_cur (- TRCBYTES) f2) else
    readData_loop fuel n1 sx fldr itrace data (upd hdrs itrace hb) f2
  end.
(** readData.c:16-46; the number of iterations of the loop is at most the number of bytes *)
Definition readData (f : file) (data hdrs : Z -> list Z) (n1 : Z) : outcome (Z * (Z -> list Z) * (Z -> list Z) * file) :=
  let '(hb, nread, f1) := fread 1 TRCBYTES f in
  let hdrs := upd hdrs 0 (overlay (hdrs 0) hb) in
  if nread =? 0 then Ret (0, data, hdrs, f1) else
  let n1 := if n1 =? 0 then h_ns (hdrs 0) else n1 in
  readData_loop (S (length (f_bytes f))) n1 (h_sx (hdrs 0)) (h_fldr (hdrs 0)) 0 data hdrs f1.

(** writeData.c:14-27: the file is open for writing at its end *)
Definition writeData (f : file) (data hdrs : Z -> list Z) (n1 n2 : Z) : file :=
  fold_left (fun f i =>
    let bs := hdrs i ++ concat (map data (range (i * n1) (i * n1 + n1))) in
    mkFile (f_bytes f ++ bs) (f_pos f + Z.of_nat (length bs))) (range 0 n2) f.

Section INFO.
(** conversion of four bytes to a floating-point number *)
Variable f32 : list Z -> Q.
Definition f32at (off : nat) (h : list Z) : Q := f32 (firstn 4 (skipn off h)).

(** getFileInfo.c:66-68 *)
Definition scale_of (v : Z) : Q := if v <? 0 then (1 / inject_Z (Z.abs v))%Q else if v =? 0 then 1%Q else inject_Z v.

(** getFileInfo.c:81-89: number of traces of the first shot record, header held afterwards,
    receiver of the last trace *)
Fixpoint info_first (fuel : nat) (sx fldr : Z) (hdr : list Z) (itrace : Z) (f : file) : outcome (Z * list Z * Z) :=
  match fuel with
  | O => Endless
  | S fuel =>
    let '(bs, nread, f1) := fread 4 (h_ns hdr) f in
    if negb (nread =? h_ns hdr) then Abort else
    let itrace := itrace + 1 in
    let gx_end := h_gx hdr in
    let '(hb, nread, f2) := fread 1 TRCBYTES f1 in
    let hdr := overlay hdr hb in
    if nread =? 0 then Ret (itrace, hdr, gx_end) else
    if negb (sx =? h_sx hdr) || negb (fldr =? h_fldr hdr) then Ret (itrace, hdr, gx_end) else
    info_first fuel sx fldr hdr itrace f2
  end.

(** getFileInfo.c:9: MIN *)
Definition QMIN (x y : Q) : Q := if Qle_bool y x then y else x.
(** getFileInfo.c:129-130,141-142: extremes and receiver distance of the scan *)
Record scan := mkScan { s_xmin : Z; s_xmax : Z; s_dxrcv : Q }.
Definition extremes (h : list Z) (s : scan) : scan :=
  mkScan (Z.min (Z.min (h_gx h) (s_xmin s)) (h_sx h)) (Z.max (Z.max (h_gx h) (s_xmax s)) (h_sx h)) (s_dxrcv s).

(** getFileInfo.c:133-150: a shot record; the third result tells that the file has ended *)
Fixpoint info_shot (fuel : nat) (data_sz sx fldr gx_end : Z) (hdr : list Z) (itrace : Z) (s : scan) (f : file) : outcome (Z * Z * bool * scan * file) :=
  match fuel with
  | O => Endless
  | S fuel =>
    let f := fseek_cur data_sz f in
    let itrace := itrace + 1 in
    let s := if h_gx hdr =? gx_end then s else mkScan (s_xmin s) (s_xmax s) (QMIN (s_dxrcv s) (inject_Z (Z.abs (h_gx hdr - gx_end)))) in
    let gx_end := h_gx hdr in
    let s := extremes hdr s in
    let '(hb, nread, f1) := fread 1 TRCBYTES f in
    let hdr := overlay hdr hb in
    if negb (nread =? TRCBYTES) then Ret (itrace, gx_end, true, s, f1) else
    if negb (sx =? h_sx hdr) || negb (fldr =? h_fldr hdr) then Ret (itrace, gx_end, false, s, f1) else
    info_shot fuel data_sz sx fldr gx_end hdr itrace s f1
  end.
(** getFileInfo.c:121-168: all shot records; the header kept over a record is its first one, it is
    not used *)
Fixpoint info_shots (fuel : nat) (data_sz : Z) (hdr : list Z) (igath n2 : Z) (s : scan) (f : file) : outcome (Z * Z * scan) :=
  match fuel with
  | O => Endless
  | S fuel =>
    let '(hb, nread, f1) := fread 1 TRCBYTES f in
    let hdr := overlay hdr hb in
    if negb (nread =? TRCBYTES) then Ret (igath, n2, s) else
    let s := extremes hdr s in
    match info_shot (S (length (f_bytes f))) data_sz (h_sx hdr) (h_fldr hdr) (h_gx hdr) hdr 0 s f1 with
    | Ret (itrace, gx_end, eof, s, f2) =>
      let s := if 1 <? itrace then mkScan (s_xmin s) (s_xmax s) (inject_Z (Z.abs (gx_end - h_gx hdr)) / inject_Z (itrace - 1))%Q else s in
      let n2 := if 1 <? itrace then Z.max n2 itrace else n2 in
      if itrace =? 0 then Ret (igath, n2, s) else
      let f3 := fseek_cur (- TRCBYTES) f2 in
      if eof then Ret (igath + 1, n2, s) else info_shots fuel data_sz hdr (igath + 1) n2 s f3
    | Abort => Abort
    | Endless => Endless
    end
  end.

(** the values returned through the pointers *)
Record info := mkInfo { i_n1 : Z; i_n2 : Z; i_ngath : Z; i_d1 : Q; i_d2 : Q; i_f1 : Q; i_f2 : Q; i_xmin : Q; i_xmax : Q; i_scl : Q; i_nxm : Z }.

(** getFileInfo.c:24-189, for an existing file; ngath is the value passed in *)
Definition getFileInfo (f0 : file) (hdr0 : list Z) (ngath : Z) : outcome info :=
  let '(hb, nread, _) := fread 1 TRCBYTES f0 in
  if negb (nread =? TRCBYTES) then Abort else
  let hdr := overlay hdr0 hb in
  let bytes := f_size f0 in
  let n1 := h_ns hdr in
  let timed := (h_trid hdr =? 1) && negb (h_dt hdr =? 0) in
  let d1 := if timed then (inject_Z (h_dt hdr) * (1 # 1000000))%Q else f32at at_d1 hdr in
  let f1 := if timed then (inject_Z (h_delrt hdr) / inject_Z 1000)%Q else f32at at_f1 hdr in
  let f2 := f32at at_f2 hdr in
  let data_sz := 4 * n1 in
  let trace_sz := 4 * n1 + TRCBYTES in
  let ntraces := bytes / trace_sz in
  let scl := scale_of (h_scalco hdr) in
  match info_first (S (length (f_bytes f0))) (h_sx hdr) (h_fldr hdr) hdr 0 (fseek_set TRCBYTES f0) with
  | Ret (itrace, hdr1, gx_end) =>
    let dxrcv := (inject_Z (gx_end - h_gx hdr) / inject_Z (itrace - 1))%Q in
    let '(n2, d2) :=
      if 1 <? itrace then
        (itrace,
         if negb (NINT (dxrcv * 1000) =? NINT (Qabs (f32at at_d2 hdr1) * 1000)) then
           if Qeq_bool dxrcv 0 then f32at at_d2 hdr1 else (Qabs dxrcv * scl)%Q
         else (Qabs dxrcv * scl)%Q)
      else (Z.max (h_trwf hdr1) 1, f32at at_d2 hdr1) in
    if ngath =? 0 then
      match info_shots (S (length (f_bytes f0))) data_sz hdr1 0 0 (mkScan (h_gx hdr) (h_gx hdr) d2) (fseek_set 0 f0) with
      | Ret (igath, n2, s) => Ret (mkInfo n1 n2 igath d1 (s_dxrcv s * scl)%Q f1 f2 (inject_Z (s_xmin s) * scl)%Q (inject_Z (s_xmax s) * scl)%Q scl ntraces)
      | Abort => Abort
      | Endless => Endless
      end
    else
      let '(hb, _, _) := fread 1 TRCBYTES (fseek_end (- trace_sz) f0) in
      let s := extremes (overlay hdr1 hb) (mkScan (h_gx hdr) (h_gx hdr) d2) in
      Ret (mkInfo n1 n2 (ntraces / n2) d1 d2 f1 f2 (inject_Z (s_xmin s) * scl)%Q (inject_Z (s_xmax s) * scl)%Q scl ntraces)
  | Abort => Abort
  | Endless => Endless
  end.
End INFO.

(** marchenko/readShotData.c: positions of the sources and receivers; the samples are left out,
    their padding is in Marchenko.v *)
Record shots := mkShots { isx : Z -> Z; igx : Z -> Z; xsrc : Z -> Q; zsrc : Z -> Q; xrcv : Z -> Q; xnx : Z -> Z }.
Definition set_source (s : shots) (igath sx : Z) (x z : Q) : shots :=
  mkShots (upd (isx s) igath sx) (igx s) (upd (xsrc s) igath x) (upd (zsrc s) igath z) (xrcv s) (upd (xnx s) igath 0).
Definition set_receiver (s : shots) (igath a gx : Z) (x : Q) : shots :=
  mkShots (isx s) (upd (igx s) a gx) (xsrc s) (zsrc s) (upd (xrcv s) a x) (upd (xnx s) igath (xnx s igath + 1)).

(** readShotData.c:92-133: a shot record *)
Fixpoint read_shot (fuel : nat) (nt nx sx fldr : Z) (scl : Q) (igath : Z) (hdr : list Z) (itrace : Z) (s : shots) (f : file) : outcome (Z * bool * shots * file) :=
  match fuel with
  | O => Endless
  | S fuel =>
    let s := set_receiver s igath (igath * nx + itrace) (h_gx hdr) (inject_Z (h_gx hdr) * scl)%Q in
    let '(bs, nread, f1) := fread 4 nt f in
    if negb (nread =? h_ns hdr) then Abort else
    let itrace := itrace + 1 in
    let '(hb, nread, f2) := fread 1 TRCBYTES f1 in
    let hdr := overlay hdr hb in
    if negb (nread =? TRCBYTES) then Ret (itrace, true, s, f2) else
    if negb (sx =? h_sx hdr) || negb (fldr =? h_fldr hdr) then Ret (itrace, false, s, f2) else
    read_shot fuel nt nx sx fldr scl igath hdr itrace s f2
  end.
(** readShotData.c:69-145: all; the header kept over a record is its first one, it is not used shot records *)
Fixpoint read_shots (fuel : nat) (nt nx : Z) (scl scel : Q) (igath : Z) (hdr : list Z) (s : shots) (f : file) : outcome (Z * shots) :=
  match fuel with
  | O => Endless
  | S fuel =>
    let '(hb, nread, f1) := fread 1 TRCBYTES f in
    let hdr := overlay hdr hb in
    if negb (nread =? TRCBYTES) then Ret (igath, s) else
    let s := set_source s igath (h_sx hdr) (inject_Z (h_sx hdr) * scl)%Q (inject_Z (h_selev hdr) * scel)%Q in
    match read_shot (S (length (f_bytes f))) nt nx (h_sx hdr) (h_fldr hdr) scl igath hdr 0 s f1 with
    | Ret (itrace, eof, s, f2) =>
      if itrace =? 0 then Ret (igath, s) else
      let f3 := fseek_cur (- TRCBYTES) f2 in
      if eof then Ret (igath + 1, s) else read_shots fuel nt nx scl scel (igath + 1) hdr s f3
    | Abort => Abort
    | Endless => Endless
    end
  end.
(** readShotData.c:41-145 *)
Definition readShots (f0 : file) (hdr0 : list Z) (nx : Z) (s : shots) : outcome (Z * shots) :=
  let '(hb, nread, _) := fread 1 TRCBYTES (fseek_set 0 f0) in
  if negb (nread =? TRCBYTES) then Abort else
  let hdr := overlay hdr0 hb in
  read_shots (S (length (f_bytes f0))) (h_ns hdr) nx (scale_of (h_scalco hdr)) (scale_of (h_scalel hdr)) 0 hdr s (fseek_set 0 f0).

(** the tables of reciprocal traces, stored by position: isxcount, reci_xrcv, reci_xsrc, ixmask *)
Record reci := mkReci { r_count : Z -> Z; r_rcv : Z -> Z; r_src : Z -> Z; r_mask : Z -> Q }.
(** readShotData.c:169-176, 185-191 *)
Definition add_reci (nxs ixsrc k l : Z) (half : bool) (t : reci) : reci :=
  if (0 <=? ixsrc) && (ixsrc <? nxs) then
    mkReci (upd (r_count t) ixsrc (r_count t ixsrc + 1))
      (upd (r_rcv t) (ixsrc * nxs + r_count t ixsrc) k) (upd (r_src t) (ixsrc * nxs + r_count t ixsrc) l)
      (if half then upd (r_mask t) ixsrc (1 # 2) else r_mask t)
  else t.
(** readShotData.c:157-192: trace l of shot k; the first shot m at the position of the receiver *)
Definition reci_trace (opt nshots nx nxs : Z) (fxsb dxs : Q) (s : shots) (k l : Z) (t : reci) : reci :=
  let ixsrc := NINT ((xrcv s (k * nx + l) - fxsb) / dxs) in
  match find (fun m => (igx s (k * nx + l) =? isx s m) && (opt =? 1)) (range 0 nshots) with
  | Some m =>
    let samercv := existsb (fun j => isx s k =? igx s (m * nx + j)) (range 0 (xnx s m)) in
    if samercv then t else add_reci nxs ixsrc k l (opt =? 1) t
  | None => add_reci nxs ixsrc k l false t
  end.
(** readShotData.c:150-194; the value returned in nshots_r is 193-201 *)
Definition reciprocity (opt nshots nx nxs : Z) (fxsb dxs : Q) (s : shots) (t : reci) : reci * Z :=
  let t := mkReci (r_count t) (r_rcv t) (r_src t) (fold_left (fun m k => upd m k 1%Q) (range 0 nxs) (r_mask t)) in
  let t := fold_left (fun t k => fold_left (fun t l => reci_trace opt nshots nx nxs fxsb dxs s k l t) (range 0 (xnx s k)) t) (range 0 nshots) t in
  (t, Z.of_nat (length (filter (fun k => negb (r_count t k =? 0)) (range 0 nxs)))).
