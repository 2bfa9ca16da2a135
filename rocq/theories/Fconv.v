(** Model of utils/fconv.c: convolution, correlation, deconvolution, power and coherence of gathers.

    Exact real arithmetic.  The Fourier transforms of the traces are those of FftLayout.v; arrays from malloc have
    arbitrary contents (junk).  Arrays are functions from the index. *)
From Coq Require Import ZArith Reals List Bool.
From Verif Require Import FdKernels Marchenko KissFft FftSize FftSpec FftLayout.
Import ListNotations.
Local Open Scope Z_scope.

(** fconv.c:1004-1013 *)
Definition pad_data (data : Z -> R) (nsam nrec nsamout : Z) (out : Z -> R) : Z -> R :=
  fold_left (fun o ix =>
    let o := fold_left (fun o it => upd o (ix * nsamout + it) (data (ix * nsam + it))) (range 0 nsam) o in
    fold_left (fun o it => upd o (ix * nsamout + it) 0%R) (range nsam nsamout) o) (range 0 nrec) out.
(** fconv.c:1015-1022 *)
Definition scl_data (data : Z -> R) (nsam nrec : Z) (scl : R) (out : Z -> R) (nsamout : Z) : Z -> R :=
  fold_left (fun o ix => fold_left (fun o it => upd o (ix * nsamout + it) (scl * data (ix * nsam + it)%Z)%R) (range 0 nsamout) o) (range 0 nrec) out.
(** a loop over all frequencies of all traces *)
Definition pointwise (f : Z -> C) (n : Z) (q : Z -> C) : Z -> C := fold_left (fun q j => upd q j (f j)) (range 0 n) q.
(** fconv.c:503-517, 684-699, 862-876, 975-989: time zero to the middle; om = i * dw *)
Definition delay (dt : R) (optn nsam nrec nfreq : Z) (c : Z -> C) : Z -> C :=
  let dw := (2 * PI * (1 / (dt * IZR optn)))%R in
  let tau := (dt * IZR (nsam / 2))%R in
  fold_left (fun c j => fold_left (fun c i =>
    let om := (IZR i * dw)%R in
    let '(r, im) := c (j * nfreq + i) in
    upd c (j * nfreq + i) (r * cos (om * tau) + im * sin (om * tau), im * cos (om * tau) - r * sin (om * tau))%R) (range 0 nfreq) c) (range 0 nrec) c.
(** fconv.c:774-787: the same for the power spectrum, whose imaginary part is zero *)
Definition delay_power (dt : R) (optn nsam nrec nfreq : Z) (c : Z -> C) : Z -> C :=
  let dw := (2 * PI * (1 / (dt * IZR optn)))%R in
  let tau := (dt * IZR (nsam / 2))%R in
  fold_left (fun c j => fold_left (fun c i =>
    let om := (IZR i * dw)%R in
    let '(r, im) := c (j * nfreq + i) in
    upd c (j * nfreq + i) (r * cos (- om * tau), r * sin (- om * tau))%R) (range 0 nfreq) c) (range 0 nrec) c.

Section FUNCTIONS.
Variables (junkr : Z -> R) (junkc : Z -> C).
(** The common parts of the functions corr, corr3, deconv, power, convol and cohr: forward transforms of the
    padded traces, an operation on the spectra, the inverse transform and scaling. *)
Definition spectral_n (optn : Z) (op : (Z -> C) -> (Z -> C) -> Z -> Z -> Z -> C) (data1 data2 out : Z -> R) (nrec nsam : Z) (dt : R) (ntout : Z) : Z -> R :=
  let nfreq := optn / 2 + 1 in
  let rdata1 := pad_data data1 nsam nrec optn junkr in
  let rdata2 := pad_data data2 nsam nrec optn junkr in
  let cdata1 := rcmfft rdata1 junkc optn nrec optn nfreq (-1) in
  let cdata2 := rcmfft rdata2 junkc optn nrec optn nfreq (-1) in
  let q := op cdata1 cdata2 optn nfreq in
  scl_data (crmfft q rdata1 optn nrec nfreq optn 1) optn nrec (dt / IZR optn) out ntout.
Definition spectral (op : (Z -> C) -> (Z -> C) -> Z -> Z -> Z -> C) (data1 data2 out : Z -> R) (nrec nsam : Z) (dt : R) (ntout : Z) : Z -> R :=
  spectral_n (optncr nsam) op data1 data2 out nrec nsam dt ntout.
(** fconv.c:450-529 *)
Definition corr (data1 data2 cov : Z -> R) (nrec nsam : Z) (dt : R) (shift : bool) : Z -> R :=
  spectral (fun c1 c2 optn nfreq =>
    let q := pointwise (fun j => let '(p1r, p1i) := c1 j in let '(p2r, p2i) := c2 j in (p1r * p2r + p1i * p2i, p1i * p2r - p1r * p2i)%R) (nrec * nfreq) junkc in
    if shift then delay dt optn nsam nrec nfreq q else q) data1 data2 cov nrec nsam dt nsam.
(** fconv.c:539-600; the imaginary part is left at zero by calloc *)
Definition corr3 (data1 data2 cov : Z -> R) (nrec nsam : Z) (dt : R) : Z -> R :=
  spectral (fun c1 c2 optn nfreq =>
    pointwise (fun j => let '(p1r, p1i) := c1 j in let '(p2r, p2i) := c2 j in (p1r * p2r - p1i * p2i, 0)%R) (nrec * nfreq) (fun _ => (0, 0)%R)) data1 data2 cov nrec nsam dt (nsam / 2).
(** fconv.c:649-655: the largest value of |f2|^2 *)
Definition largest (den : Z -> R) (n : Z) : R := fold_left (fun m j => Rmax (den j) m) (range 0 n) 0%R.
(** fconv.c:609-711 *)
Definition deconv (data1 data2 decon : Z -> R) (nrec nsam : Z) (dt eps reps : R) (shift : bool) : Z -> R :=
  spectral (fun c1 c2 optn nfreq =>
    let n := nrec * nfreq in
    let den := fun j => let '(p2r, p2i) := c2 j in (p2r * p2r + p2i * p2i)%R in
    let leps := (reps * largest den n + eps)%R in
    let q := pointwise (fun j =>
        let '(p1r, p1i) := c1 j in
        let '(p2r, p2i) := c2 j in
        if Rle_dec (Rabs p2i) (Rabs p2r)
        then ((p2r * p1r + p2i * p1i) / (den j + leps), (p2r * p1i - p2i * p1r) / (den j + leps))%R
        else ((p1r * p2r + p1i * p2i) / (den j + leps), (p1i * p2r - p1r * p2i) / (den j + leps))%R) n junkc in
    if shift then delay dt optn nsam nrec nfreq q else q) data1 data2 decon nrec nsam dt nsam.
(** fconv.c:721-799 *)
Definition power (data1 data2 cov : Z -> R) (nrec nsam : Z) (dt : R) (shift : bool) : Z -> R :=
  spectral (fun c1 c2 optn nfreq =>
    let q := pointwise (fun j => let '(p1r, p1i) := c1 j in let '(p2r, p2i) := c2 j in (p1r * p2r + p1i * p2i, 0)%R) (nrec * nfreq) junkc in
    if shift then delay_power dt optn nsam nrec nfreq q else q) data1 data2 cov nrec nsam dt nsam.
(** fconv.c:809-888 *)
Definition convol (data1 data2 con : Z -> R) (nrec nsam : Z) (dt : R) (shift : bool) : Z -> R :=
  spectral (fun c1 c2 optn nfreq =>
    let q := pointwise (fun j => let '(p1r, p1i) := c1 j in let '(p2r, p2i) := c2 j in (p2r * p1r - p2i * p1i, p2r * p1i + p2i * p1r)%R) (nrec * nfreq) junkc in
    if shift then delay dt optn nsam nrec nfreq q else q) data1 data2 con nrec nsam dt nsam.
(** fconv.c:891-1001; scl0 is the value of scl before its first assignment *)
Definition cohr (scl0 : R) (data1 data2 cov : Z -> R) (nrec nsam : Z) (dt epsmax eps reps : R) (shift : bool) : Z -> R :=
  spectral (fun c1 c2 optn nfreq =>
    let den := fun j => let '(p1r, p1i) := c1 j in let '(p2r, p2i) := c2 j in (sqrt (p1r * p1r + p1i * p1i) * sqrt (p2r * p2r + p2i * p2i))%R in
    let '(q, _) := fold_left (fun (s : (Z -> C) * R) i =>
        let maxden := fold_left (fun m j => Rmax m (den (j + i * nfreq))) (range 0 nfreq) 0%R in
        let leps := (reps * maxden + eps)%R in
        fold_left (fun (s : (Z -> C) * R) j =>
          let '(q, scl) := s in
          let d := den (j + i * nfreq) in
          let scl := if Rlt_dec (epsmax * maxden) d then (1 / d)%R
                     else if Rlt_dec d (epsmax * maxden) then (if Req_EM_T d 0 then 1 else 1 / (d + leps))%R
                     else if Req_EM_T d 0 then 1%R else scl in
          let '(p1r, p1i) := c1 (i * nfreq + j) in
          let '(p2r, p2i) := c2 (i * nfreq + j) in
          (upd q (i * nfreq + j) ((p1r * p2r + p1i * p2i) * scl, (p1i * p2r - p1r * p2i) * scl)%R, scl)) (range 0 nfreq) s) (range 0 nrec) (junkc, scl0) in
    if shift then delay dt optn nsam nrec nfreq q else q) data1 data2 cov nrec nsam dt nsam.
End FUNCTIONS.

(** ** the program *)
(** A gather in a file: its number of traces and its samples, nt per trace *)
Record gather := mkGather { g_nx : Z; g_val : Z -> R }.
(** The arrays given to the chosen function for one gather *)
Record call := mkCall { c_data1 : Z -> R; c_data2 : Z -> R; c_nrec : Z; c_nsam : Z }.
Section PROGRAM.
Variables (nt1 nt2 : Z) (dt alpha : R).
(** fconv.c:170, 234 *)
Definition etap (j : Z) : R := exp (alpha * IZR j * dt).
(** fconv.c:236-252: the first gathers; nsam is ntfft *)
Definition first_fill (nt nsam nx nrec : Z) (tmp : Z -> R) : Z -> R :=
  let d := fold_left (fun d i => fold_left (fun d j => upd d (i * nsam + j) (tmp (i * nt + j)%Z * etap j)%R) (range 0 nt) d) (range 0 nx) (fun _ => 0%R) in
  fold_left (fun d i => fold_left (fun d j => upd d (i * nsam + j) (d ((nx - 1) * nsam + j))) (range 0 nsam) d) (range nx nrec) d.
(** fconv.c:385-411: later gathers *)
Definition next_fill (nt nsam nx nrec : Z) (tmp data : Z -> R) : Z -> R :=
  fold_left (fun d i =>
    let row := if i <? nx then i else nx - 1 in
    let d := fold_left (fun d j => upd d (i * nsam + j) (tmp (row * nt + j)%Z * etap j)%R) (range 0 nt) d in
    fold_left (fun d j => upd d (i * nsam + j) 0%R) (range nt nsam) d) (range 0 nrec) data.
(** fconv.c:352-425: the later gathers; nx2r is the number of traces of the first gather of file 2,
    repeat is set when file 2 has ended.  nx2 keeps its value while repeating. *)
Fixpoint later (nx2r : Z) (gs hs : list gather) (repeat : bool) (nx2 : Z) (data1 data2 : Z -> R) : list call :=
  match gs with
  | [] => []
  | g :: gs =>
    let nx1 := g_nx g in
    let nsam := Z.max nt1 nt2 in
    match repeat, hs with
    | false, h :: hs =>
      let nx2 := g_nx h in
      let nrec := Z.max nx1 nx2 in
      let data1 := next_fill nt1 nsam nx1 nrec (g_val g) data1 in
      let data2 := next_fill nt2 nsam nx2 nrec (g_val h) data2 in
      mkCall data1 data2 nrec nsam :: later nx2r gs hs false nx2 data1 data2
    | r, _ =>
      let nx2 := if r then nx2 else nx2r in
      let nrec := Z.max nx1 nx2 in
      let data1 := next_fill nt1 nsam nx1 nrec (g_val g) data1 in
      mkCall data1 data2 nrec nsam :: later nx2r gs hs true nx2 data1 data2
    end
  end.
(** fconv.c:148-425 with auto=0: the calls for all gathers of the files *)
Definition calls (ntfft : option Z) (gs hs : list gather) : list call :=
  match gs, hs with
  | g :: gs, h :: hs =>
    let nrec := Z.max (g_nx g) (g_nx h) in
    let nsam := match ntfft with Some n => n | None => Z.max nt1 nt2 end in
    let data1 := first_fill nt1 nsam (g_nx g) nrec (g_val g) in
    let data2 := first_fill nt2 nsam (g_nx h) nrec (g_val h) in
    mkCall data1 data2 nrec nsam :: later (g_nx h) gs hs false (g_nx h) data1 data2
  | _, _ => []
  end.
(** fconv.c:273-281: etapi has ntmax entries; None: read behind its end *)
Definition etapi (ntmax nsam : Z) (shift : bool) (j : Z) : option R :=
  if j <? ntmax then
    Some (if shift then (if j <? nsam / 2 then exp (- alpha * (dt * IZR (nsam / 2) + IZR j * dt)) else exp (- alpha * (IZR (j - nsam / 2) * dt)))
          else exp (- alpha * IZR j * dt))%R
  else None.
(** fconv.c:342-345: the sample j of trace i as it is written *)
Definition written (ntmax nsam ntout : Z) (shift : bool) (conv : Z -> R) (i j : Z) : option R :=
  match etapi ntmax nsam shift j with Some e => Some (conv (i * ntout + j)%Z * e)%R | None => None end.
End PROGRAM.
