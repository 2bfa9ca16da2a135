(** corrvir: virtual source gathers.  corrvir/correlate.c and corrvir/corrvir.c:405-621 for one virtual source and one virtual receiver.  Numbers are real
    numbers; arrays are functions from the index.  The Fourier transforms are those of FftSpec.v. *)
From Coq Require Import ZArith Reals List Bool.
From Verif Require Import FdKernels Marchenko KissFft FftSpec FconvSpec CorrvirSpec.
Import ListNotations.
Local Open Scope Z_scope.

Notation C := (R * R)%type.
(** a source of a common-receiver gather: coordinates and the number of its trace in the file *)
Record source := mkSource { pos : Z * Z; fpos : Z }.
(** corrvir.c:413-430, 453-517: is a source accepted; sv, gv: virtual source and receiver.  Other values of src_sel use an uninitialised variable and are not
    modelled. *)
Definition accept (src_sel bmin bmax : Z) (sv gv s : Z * Z) : bool :=
  let '(sxv, syv) := sv in let '(gxv, gyv) := gv in let '(sx, sy) := s in
  if src_sel =? 0 then true
  else if src_sel =? 1 then negb ((Z.min gxv sxv <? sx) && (sx <? Z.max gxv sxv)) && negb ((Z.min gyv syv <? sy) && (sy <? Z.max gyv syv))
  else if src_sel =? 2 then
    let cx3 := (sxv + gxv + 1) / 2 in let cy3 := (syv + gyv + 1) / 2 in
    let distmc2 := (sxv - cx3) * (sxv - cx3) + (syv - cy3) * (syv - cy3) in
    let distsc2min := distmc2 + bmin * bmin * distmc2 in let distsc2max := distmc2 + bmax * bmax * distmc2 in
    let distsc2 := (sxv - cx3) * (sxv - cx3) + (syv - cy3) * (syv - cy3) in
    negb ((distsc2 <? distsc2min) && (distsc2max <? distsc2))
  else if src_sel =? 3 then
    if (sxv <? gxv) && (syv <? gyv) then (sx <? sxv) && (sy <? syv)
    else if (sxv <? gxv) && (gyv <? syv) then (sx <? sxv) && (syv <? sy)
    else if (gxv <? sxv) && (syv <? gyv) then (sxv <? sx) && (sy <? syv)
    else if (gxv <? sxv) && (gyv <? syv) then (sxv <? sx) && (syv <? sy) else false
  else if src_sel =? 4 then
    if (sxv <? gxv) && (syv <? gyv) then (sx <? gxv) && (sy <? gyv)
    else if (sxv <? gxv) && (gyv <? syv) then (sx <? gxv) && (gyv <? sy)
    else if (gxv <? sxv) && (syv <? gyv) then (gxv <? sx) && (sy <? gyv)
    else if (gxv <? sxv) && (gyv <? syv) then (gxv <? sx) && (gyv <? sy) else false
  else false.
Definition same_position (a b : source) : bool := (fst (pos a) =? fst (pos b)) && (snd (pos a) =? snd (pos b)).
(** corrvir.c:446-537: the traces of master and slave in the order in which they are read *)
Definition pairs (src_sel bmin bmax : Z) (sv gv : Z * Z) (master slave : list source) : list (Z * Z) :=
  flat_map (fun m => flat_map (fun s => if same_position m s && accept src_sel bmin bmax sv gv (pos s) then [(fpos m, fpos s)] else []) slave) master.

(** correlate.c:16-46 *)
Definition correlate (cmaster cslaves : Z -> C) (nfreq ncor : Z) : Z -> C :=
  fold_left (fun q istation => fold_left (fun q j =>
    let a := cmaster (istation * nfreq + j) in let b := q (istation * nfreq + j) in
    upd q (istation * nfreq + j) (fst a * fst b + snd a * snd b, fst a * snd b - snd a * fst b)%R) (range 0 nfreq) q) (range 0 ncor) cslaves.
(** correlate.c:60-67 *)
Definition den (cmaster cslaves : Z -> C) (a : Z) : R :=
  let m := cmaster a in let s := cslaves a in (sqrt (fst m * fst m + snd m * snd m) * sqrt (fst s * fst s + snd s * snd s))%R.
(** correlate.c:72-75 *)
Definition maxden (d : Z -> R) (nfreq icc : Z) : R := fold_left (fun m j => Rmax m (d (icc + j)%Z)) (range 0 nfreq) 0%R.
(** correlate.c:80-82; scl: the value of the variable before *)
Definition factor (reps epsmax m d scl : R) : R :=
  if Rlt_dec (epsmax * m) d then (1 / d)%R else if Rlt_dec d (epsmax * m) then (if Req_EM_T d 0 then 1%R else (1 / (d + reps * m))%R) else if Req_EM_T d 0 then 1%R else scl.
(** correlate.c:48-96; scl0: the uninitialised variable *)
Definition coherence (scl0 : R) (cmaster cslaves : Z -> C) (nfreq ncor : Z) (reps epsmax : R) : Z -> C :=
  let d := den cmaster cslaves in
  fst (fold_left (fun st istation =>
    let m := maxden d nfreq (istation * nfreq) in
    fold_left (fun '(q, scl) j =>
      let scl := factor reps epsmax m (d (istation * nfreq + j)) scl in
      let a := cmaster (istation * nfreq + j) in let b := q (istation * nfreq + j) in
      (upd q (istation * nfreq + j) ((fst a * fst b + snd a * snd b) * scl, (fst a * snd b - snd a * fst b) * scl)%R, scl)) (range 0 nfreq) st) (range 0 ncor) (cslaves, scl0)).
(** corrvir.c:558-569 *)
Definition source_scale (normsrc nfreq jsource : Z) (q : Z -> C) : R :=
  if normsrc =? 1 then let rms2 := fold_left (fun s k => s + (fst (q (jsource * nfreq + k)%Z) * fst (q (jsource * nfreq + k)%Z) + snd (q (jsource * nfreq + k)%Z) * snd (q (jsource * nfreq + k)%Z)))%R (range 0 nfreq) 0%R in
    if Rlt_dec 0 rms2 then (1 / sqrt rms2)%R else 1%R
  else 1%R.
(** corrvir.c:556-575 *)
Definition stack (normsrc nfreq nsrc : Z) (q : Z -> C) : Z -> C :=
  fold_left (fun c jsource => let sclrms := source_scale normsrc nfreq jsource q in
    fold_left (fun c k => upd c k (fst (c k) + fst (q (jsource * nfreq + k)%Z) * sclrms, snd (c k) + snd (q (jsource * nfreq + k)%Z) * sclrms)%R) (range 0 nfreq) c) (range 0 nsrc) (fun _ => (0, 0)%R).
(** corrvir.c:586-609; vtrace: its previous contents *)
Definition output (causal ntfft nt : Z) (scl : R) (r vtrace : Z -> R) : Z -> R :=
  if causal =? 1 then fold_left (fun v j => upd v j (r j * scl)%R) (range 0 nt) vtrace
  else if causal =? 2 then fold_left (fun v j => upd v j (r (ntfft - j)%Z * scl)%R) (range 1 nt) (upd vtrace 0 (r 0%Z * scl)%R)
  else if causal =? 3 then fold_left (fun v j => upd v j (r (j - nt / 2)%Z * scl)%R) (range (nt / 2) nt) (fold_left (fun v j => upd v (nt / 2 - j) (r (ntfft - j)%Z * scl)%R) (range 1 (nt / 2 + 1)) vtrace)
  else if causal =? 4 then fold_left (fun v j => upd v j (/ 2 * (r (ntfft - j)%Z + r j) * scl)%R) (range 1 nt) (upd vtrace 0 (r 0%Z * scl)%R)
  else vtrace.
(** corrvir.c:520-609: the virtual trace from the pairs of traces; data f: samples of trace f of the file *)
Definition virtual_trace (cohr : bool) (normsrc normalize causal nsrc_ctr ntfft nt nfreq : Z) (reps epsmax scl0 : R) (data : Z -> Z -> R) (prs : list (Z * Z)) (vtrace : Z -> R) : Z -> R :=
  let cmaster := fun a => spectrum ntfft (extended nt (data (fst (nth (Z.to_nat (a / nfreq)) prs (0, 0))))) (a mod nfreq) in
  let cslaves := fun a => spectrum ntfft (extended nt (data (snd (nth (Z.to_nat (a / nfreq)) prs (0, 0))))) (a mod nfreq) in
  let nsrc := Z.of_nat (length prs) in
  let nsrc := if nsrc <? nsrc_ctr then -1 else nsrc in
  let q := if cohr then coherence scl0 cmaster cslaves nfreq nsrc reps epsmax else correlate cmaster cslaves nfreq nsrc in
  let c := stack normsrc nfreq nsrc q in
  let r := fun t => fst (dft ntfft 1 (hermitian ntfft c) t) in
  let sclfft := (1 / IZR ntfft)%R in
  let scl := if negb (normalize =? 0) && (0 <? nsrc) then (sclfft / IZR nsrc)%R else sclfft in
  output causal ntfft nt scl r vtrace.
