(** fdelmodc/defineSource.c: source signatures from a file, and random ones; with the part of getParameters.c that chooses
    the number of samples.  Numbers are real numbers; arrays are functions of the index; the Fourier transforms rc1fft and
    cr1fft are those of FftSpec.v. *)
From Coq Require Import ZArith Reals List Bool.
From Verif Require Import FdKernels Marchenko KissFft FftSize FftSpec.
Import ListNotations.
Local Open Scope Z_scope.

(** getParameters.c:154-170: wav.nt.  The test of equal time steps compares numbers of microseconds in the source. *)
Definition wav_nt (ns : Z) (ds dt : R) : Z :=
  if Req_EM_T ds dt then ns else if Rlt_dec dt ds then Int_part (ds / dt) * optncr ns else ns.

Section WAVELETS.
Variables (ns nt optn : Z) (ds : R).
(** defineSource.c:123-136, with optn = optncr ns *)
Definition nfreq : Z := optn / 2 + 1.
Definition optnscale : Z := if nt =? ns then optn else nt.
Definition nfreqscale : Z := optnscale / 2 + 1.
(** defineSource.c:142-144 *)
Definition deltom : R := (2 * PI * (1 / (IZR optn * ds)))%R.
(** defineSource.c:156-159: n1 = ns samples are copied into an array of zeroes *)
Definition trace_in (w : Z -> R) : Z -> R := fold_left (fun m j => upd m j (w j)) (range 0 ns) (fun _ => 0%R).
Definition forward (w : Z -> R) : Z -> C :=
  fold_left (fun c k => upd c k (dft optn (-1) (real_values (trace_in w)) k)) (range 0 nfreq) (fun _ => (0, 0)%R).
(** defineSource.c:162-170 *)
Definition integrate (c : Z -> C) : Z -> C :=
  fold_left (fun c iw => let om := (1 / (deltom * IZR iw))%R in upd c iw (om * snd (c iw), - om * fst (c iw))%R) (range 1 nfreq) c.
(** defineSource.c:175-182 *)
Definition shift (tshift : R) (c : Z -> C) : Z -> C :=
  fold_left (fun c iw => let om := (deltom * IZR iw * tshift)%R in
    upd c iw (fst (c iw) * cos (- om) - snd (c iw) * sin (- om), snd (c iw) * cos (- om) + fst (c iw) * sin (- om))%R) (range 1 nfreq) c.
(** defineSource.c:185-198 *)
Definition modulus (z : C) : R := sqrt (fst z * fst z + snd z * snd z).
Definition zero_frequency (c : Z -> C) : Z -> C :=
  let amp1 := modulus (c 1) in
  if Req_EM_T amp1 0 then upd c 0 (0, 0)%R
  else let amp2 := modulus (c 2) in let amp3 := modulus (c 3) in
    let r := (amp1 + (2 * (amp1 - amp2) - (amp2 - amp3)))%R in
    upd c 0 ((if Rlt_dec (fst (c 1)) 0 then (r * -1)%R else r), 0%R).
(** defineSource.c:199-202 *)
Definition extend (c : Z -> C) : Z -> C := fold_left (fun c iw => upd c iw (0, 0)%R) (range nfreq nfreqscale) c.
(** defineSource.c:162-202; tau: the delay for src_type > 6 *)
Definition filtered (rate : bool) (tau : option R) (c : Z -> C) : Z -> C :=
  let c := if rate then c else integrate c in
  let c := match tau with Some tau => shift tau c | None => c end in
  extend (zero_frequency c).
(** defineSource.c:204-205 *)
Definition backward (c : Z -> C) : Z -> R :=
  fold_left (fun r t => upd r t (fst (dft optnscale 1 (hermitian optnscale c) t))) (range 0 optnscale) (fun _ => 0%R).
(** defineSource.c:144, 209-221 for one wavelet; src is its part of src_nwav *)
Definition stored (reverse : bool) (tr src : Z -> R) : Z -> R :=
  let scl := (1 / IZR optn)%R in
  fold_left (fun s j => upd s j (if reverse then scl * (tr (nt - j - 1)%Z - tr 0%Z) else scl * (tr j - tr (nt - 1)%Z))%R) (range 0 nt) src.
Definition one_wavelet (rate reverse : bool) (tau : option R) (w : Z -> R) : Z -> R :=
  stored reverse (backward (filtered rate tau (forward w))) w.
Definition maxampl (s : Z -> R) : R := fold_left (fun m j => Rmax m (Rabs (s j))) (range 0 nt) 0%R.
(** defineSource.c:147-231: nx wavelets; after the loop maxampl is that of the last one (undefined for nx = 0) *)
Definition all_wavelets (nx : nat) (rate reverse : bool) (tau : nat -> option R) (w : nat -> Z -> R) : nat -> Z -> R :=
  let s i := one_wavelet rate reverse (tau i) (w i) in
  let m := (maxampl (s (nx - 1)%nat) * (1 / 100000))%R in
  fun i => fold_left (fun s j => if Rlt_dec (Rabs (s j)) m then upd s j 0%R else s) (range 0 nt) (s i).
End WAVELETS.

(** spline3.c:13-36, for x1 <> x2 *)
Definition spline3 (x1 x2 z1 z2 dz1 dz2 : R) : R * R * R * R :=
  (let a := (dz1 + dz2 - 2 * (z1 - z2) / (x1 - x2)) / ((x1 - x2) * (x1 - x2)) in
   let b := / 2 * (dz1 - dz2) / (x1 - x2) - 3 / 2 * a * (x1 + x2) in
   let c := (z1 - z2 - a * (x1 * x1 * x1 - x2 * x2 * x2) - b * (x1 * x1 - x2 * x2)) / (x1 - x2) in
   let d := z1 - a * x1 * x1 * x1 - b * x1 * x1 - c * x1 in
   (a, b, c, d))%R.
Section RANDOM.
Variables (optn n1 : Z).
(** defineSource.c:300-319; re, im: the numbers drawn, iwmax: the frequency fmax, at most nfreq; optn = optncr (2 n1) *)
Definition random_spectrum (iwmax : Z) (re im : Z -> R) : Z -> C :=
  fold_left (fun c iw => upd c iw (0, 0)%R) (range iwmax (optn / 2 + 1))
    (fold_left (fun c iw => upd c iw (re iw, im iw)) (range 1 iwmax) (fun _ => (0, 0)%R)).
Definition random_signal (iwmax : Z) (re im : Z -> R) : Z -> R :=
  fold_left (fun r t => upd r t (fst (dft optn 1 (hermitian optn (random_spectrum iwmax re im)) t))) (range 0 optn) (fun _ => 0%R).
(** defineSource.c:321-330: the search for the first zero crossing; None: it leaves the array of optn samples *)
Fixpoint forward_while (fuel : nat) (p : R -> bool) (r : Z -> R) (j : Z) : option Z :=
  match fuel with
  | O => None
  | S f => if j <? optn then (if p (r j) then forward_while f p r (j + 1) else Some j) else None
  end.
Definition negative (x : R) : bool := if Rlt_dec x 0 then true else false.
Definition positive (x : R) : bool := if Rlt_dec 0 x then true else false.
Definition first_crossing (r : Z -> R) : option Z :=
  forward_while (Z.to_nat optn) (if negative (r 0) then negative else positive) r 1.
(** defineSource.c:334; NINT of a positive number *)
Definition last_start (itbeg : Z) (len : R) : Z := Z.min (Int_part (IZR itbeg + len + / 2)) n1.
(** defineSource.c:336-344 *)
Fixpoint backward_while (fuel : nat) (p : R -> bool) (r : Z -> R) (itbeg j : Z) : Z :=
  match fuel with
  | O => j
  | S f => if p (r j) && (itbeg <? j) then backward_while f p r itbeg (j - 1) else j
  end.
Definition last_crossing (r : Z -> R) (itbeg : Z) (len : R) : Z :=
  let itmax := last_start itbeg len in
  backward_while (Z.to_nat (itmax - itbeg)) (if negative (r (itmax - 1)) then negative else positive) r itbeg itmax.
(** defineSource.c:354-355 and 365-366: derivative at j, and the samples it reads *)
Definition derivative (r : Z -> R) (j : Z) : R := ((r (j - 2)%Z - 8 * r (j - 1)%Z + 8 * r (j + 1)%Z - r (j + 2)%Z) / 12)%R.
Definition derivative_reads (j : Z) : list Z := [j - 2; j - 1; j + 1; j + 2].
(** defineSource.c:357-360, 373-377 *)
Definition put_cubic (p : R * R * R * R) (j0 nsmth : Z) (r : Z -> R) : Z -> R :=
  fold_left (fun r j => let t := IZR j in let '(a, b, c, d) := p in upd r (j0 + j) (a * t * t * t + b * t * t + c * t + d)%R) (range 0 nsmth) r.
(** defineSource.c:346-360 *)
Definition smooth_begin (r : Z -> R) (itbeg nsmth : Z) : Z -> R :=
  put_cubic (spline3 0 (IZR nsmth) 0 (r (itbeg + nsmth)) 0 (derivative r (itbeg + nsmth))) itbeg nsmth r.
(** defineSource.c:362-377 *)
Definition smooth_end (r : Z -> R) (itmax nsmth : Z) : Z -> R :=
  put_cubic (spline3 0 (IZR nsmth) (r (itmax - nsmth)) 0 (derivative r (itmax - nsmth)) 0) (itmax - nsmth) nsmth r.
(** defineSource.c:347-379; rtrace: the random signal, trace: the part of src_nwav *)
Definition randomWavelet (r : Z -> R) (len : R) (trace : Z -> R) : option (Z -> R) :=
  match first_crossing r with
  | None => None
  | Some itbeg =>
    let itmax := last_crossing r itbeg len in
    let nsmth := Z.min 10 itmax in
    let r := smooth_end (smooth_begin r itbeg nsmth) itmax nsmth in
    Some (fold_left (fun tr j => upd tr (j - itbeg) (r j)) (range itbeg itmax) trace)
  end.
(** the samples of rtrace that are read besides those of the searches, the cubics and the copy: defineSource.c:352-366 *)
Definition other_reads (itbeg itmax : Z) : list Z :=
  let nsmth := Z.min 10 itmax in
  (itbeg + nsmth) :: derivative_reads (itbeg + nsmth) ++ (itmax - nsmth) :: derivative_reads (itmax - nsmth).
End RANDOM.
