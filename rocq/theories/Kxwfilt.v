(** Filter in the wavenumber domain: utils/kxwfilter.c (kxwfilt), used by basop (option kfilt).  Arithmetic in the reals. *)
From Coq Require Import ZArith Reals List.
From Verif Require Import FdKernels Marchenko Smooth.
Import ListNotations.
Local Open Scope Z_scope.

(** kxwfilter.c:75-76 *)
Definition kxnyq (dx : R) : R := (PI / dx)%R.
Definition dkx (nkx : Z) (dx : R) : R := (2 * PI / (IZR nkx * dx))%R.
(** kxwfilter.c:77-78 *)
Definition kpos (k dx a1 : R) : R := if Rlt_dec 90 a1 then kxnyq dx else (k * sin (PI * a1 / 180))%R.
(** kxwfilter.c:82-84: number of samples of the taper *)
Definition ntap0 (kp : R) (nkx : Z) (dx perc : R) : Z := Z.abs (to_int (perc * Rabs (2 * kp) / dkx nkx dx)).
(** kxwfilter.c:84-108: (ik1, ik2) = end and begin of the taper *)
Definition taper (kp : R) (nkx : Z) (dx perc : R) : Z * Z :=
  let n := ntap0 kp nkx dx perc in
  let kfilt := Rabs (dkx nkx dx * IZR n) in
  let '(kxfmax, ntap) :=
    if Rlt_dec 0 perc then if Rlt_dec (kp + kfilt) (kxnyq dx) then ((kp + kfilt)%R, n) else (kxnyq dx, to_int (15 / 100 * IZR nkx / 2))
    else (Rmin kp (kxnyq dx), n) in
  let ik1 := to_int (kxfmax / dkx nkx dx) in
  let ik2 := ik1 - ntap in
  if Rlt_dec perc (- (1 / 2)) then (nkx / 2 - 1, to_int ((if Rlt_dec (85 / 100 * kxnyq dx) kp then (85 / 100 * kxnyq dx)%R else kp) / dkx nkx dx))
  else if Rlt_dec 1 perc then (nkx / 2 - 1, to_int ((if Rlt_dec (85 / 100 * kxnyq dx) kp then (85 / 100 * kxnyq dx)%R else kp) / dkx nkx dx))
  else (ik1, ik2).
(** kxwfilter.c:110-116; f0: the contents of the new array *)
Definition filter_array (nkx ik1 ik2 : Z) (f0 : Z -> R) : Z -> R :=
  let f := fold_left (fun f i => upd f i 1%R) (range 0 ik2) f0 in
  let f := fold_left (fun f i => upd f i (1 / 2 * (cos (PI * IZR (i - ik2) * (1 / IZR (ik1 - ik2))) + 1))%R) (range ik2 ik1) f in
  fold_left (fun f i => upd f i 0%R) (range ik1 (nkx / 2 + 1)) f.
(** indices of the array that are written *)
Definition filter_writes (nkx ik1 ik2 : Z) : list Z := range 0 ik2 ++ range ik2 ik1 ++ range ik1 (nkx / 2 + 1).
(** kxwfilter.c:118-125: a complex sample is a pair *)
Definition apply_filter (nkx : Z) (f : Z -> R) (data : Z -> R * R) : Z -> R * R :=
  let sc := fun (c : R * R) (g : R) => (fst c * g, snd c * g)%R in
  let d := fold_left (fun d i => upd d i (sc (d i) (f i))) (range 0 (nkx / 2 + 1)) data in
  fold_left (fun d i => upd d i (sc (d i) (f (nkx - i)))) (range (nkx / 2 + 1) nkx) d.
(** kxwfilter.c:69-129 *)
Definition kxwfilt (data : Z -> R * R) (k dx : R) (nkx : Z) (a1 perc : R) (f0 : Z -> R) : Z -> R * R :=
  let '(ik1, ik2) := taper (kpos k dx a1) nkx dx perc in
  apply_filter nkx (filter_array nkx ik1 ik2 f0) data.
(** kxwfilter.c:24-32; nfreq = ntfft/2+1 (line 21) *)
Definition deltom (ntfft : Z) (dt : R) : R := (2 * PI * (1 / (IZR ntfft * dt)))%R.
Definition iomin (ntfft : Z) (dt fmin : R) : Z := Z.max (to_int (Rmin (2 * PI * fmin / deltom ntfft dt) (IZR (ntfft / 2 + 1 - 1)))) 1.
Definition iomax (ntfft : Z) (dt fmax : R) : Z := Z.min (to_int (2 * PI * fmax / deltom ntfft dt)) (ntfft / 2 + 1 - 1).
(** kxwfilter.c:47-52: one frequency after the other, each a row of nkx samples of cdata; f0 iom: the contents of the array allocated for it *)
Definition filter_rows (cdata : Z -> R * R) (ntfft nkx : Z) (dt dx fmin fmax angle cp perc : R) (f0 : Z -> Z -> R) : Z -> R * R :=
  fold_left (fun c iom => fun x => kxwfilt (fun i => c (iom * nkx + i)) (IZR iom * deltom ntfft dt / cp) dx nkx angle perc (f0 iom) (x - iom * nkx)) (range (iomin ntfft dt fmin) (iomax ntfft dt fmax + 1)) cdata.
