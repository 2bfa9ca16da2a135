(** Model of utils/basop.c: basic operations on a gather.  Exact real arithmetic; the Fourier transforms are those of FftLayout.v;
    arrays from malloc have arbitrary contents (junk); arrays are functions of the index. *)
From Coq Require Import ZArith Reals List Bool.
From Verif Require Import FdKernels Marchenko KissFft FftSize FftSpec FftLayout Fconv BasopSpec.
Import ListNotations.
Local Open Scope Z_scope.

(** basop.c:537-543 and the same in the other functions; the conversion to int of a number that is not negative *)
Definition deltom (optn : Z) (dt : R) : R := (2 * PI * (1 / (IZR optn * dt)))%R.
Definition iomin (optn : Z) (dt fmin : R) : Z := Int_part (Rmin (2 * PI * fmin / deltom optn dt) (IZR (optn / 2 + 1))).
Definition iomax (optn : Z) (dt fmax : R) : Z := Z.min (Int_part (2 * PI * fmax / deltom optn dt)) (optn / 2 + 1).

Section FUNCTIONS.
Variables (junkr : Z -> R) (junkc : Z -> C).
(** basop.c:545-560 and the same in the other functions: f iom multiplies the value at frequency iom *)
Definition band (f : Z -> C -> C) (lo hi nfreq nrec : Z) (cdata cdatascl : Z -> C) : Z -> C :=
  fold_left (fun o ix =>
    let o := fold_left (fun o iom => upd o (ix * nfreq + iom) (0, 0)%R) (range 0 lo) o in
    let o := fold_left (fun o iom => upd o (ix * nfreq + iom) (0, 0)%R) (range hi nfreq) o in
    fold_left (fun o iom => upd o (ix * nfreq + iom) (f iom (cdata (ix * nfreq + iom)))) (range lo hi) o) (range 0 nrec) cdatascl.
(** the common frame of the functions: basop.c:509-565 *)
Definition filtering (optn lo hi : Z) (f : Z -> C -> C) (data : Z -> R) (nsam nrec : Z) : Z -> R :=
  let nfreq := optn / 2 + 1 in
  let rdata := pad_data data nsam nrec optn junkr in
  let cdata := rcmfft rdata junkc optn nrec optn nfreq (-1) in
  let cdatascl := band f lo hi nfreq nrec cdata junkc in
  scl_data (crmfft cdatascl rdata optn nrec nfreq optn 1) optn nrec (1 / IZR optn) data nsam.
(** basop.c:503-565; optn: ntfft if given, else optncr nsam *)
Definition timeShift (optn : Z) (data : Z -> R) (nsam nrec : Z) (dt shift fmin fmax : R) : Z -> R :=
  filtering optn (iomin optn dt fmin) (iomax optn dt fmax) (fun iom c =>
    let om := (deltom optn dt * IZR iom)%R in let tom := (om * shift)%R in
    (fst c * cos (- tom) - snd c * sin (- tom), snd c * cos (- tom) + fst c * sin (- tom))%R) data nsam nrec.
(** basop.c:567-629 *)
Definition phaseRot (data : Z -> R) (nsam nrec : Z) (dt rot fmin fmax : R) : Z -> R :=
  let optn := optncr nsam in
  filtering optn (Z.max (iomin optn dt fmin) 1) (iomax optn dt fmax) (fun iom c =>
    let tom := (rot * PI)%R in (fst c * cos tom - snd c * sin tom, snd c * cos tom + fst c * sin tom)%R) data nsam nrec.
(** basop.c:763-832; pos: opt > 0, otherwise opt < 0 *)
Definition timeDiff (data : Z -> R) (nsam nrec : Z) (dt fmin fmax : R) (pos : bool) : Z -> R :=
  let optn := optncr nsam in
  filtering optn (Z.max (iomin optn dt fmin) 1) (iomax optn dt fmax) (fun iom c =>
    if pos then let om := (deltom optn dt * IZR iom)%R in (- om * snd c, om * fst c)%R
    else let om := (1 / (deltom optn dt * IZR iom))%R in (om * snd c, - om * fst c)%R) data nsam nrec.
(** basop.c:1139-1210 *)
Definition sqrtk (data : Z -> R) (nsam nrec : Z) (dt fmin fmax c : R) (pos : bool) : Z -> R :=
  let optn := optncr nsam in
  filtering optn (Z.max (iomin optn dt fmin) 1) (iomax optn dt fmax) (fun iom z =>
    let om := (deltom optn dt * IZR iom)%R in let k := (om / c)%R in
    if pos then (sqrt k * fst z, sqrt k * snd z)%R else (fst z / sqrt k, snd z / sqrt k)%R) data nsam nrec.
(** basop.c:1212-1286 *)
Definition div_sjom (data : Z -> R) (nsam nrec : Z) (dt fmin fmax : R) (pos : bool) : Z -> R :=
  let optn := optncr nsam in
  filtering optn (Z.max (iomin optn dt fmin) 1) (iomax optn dt fmax) (fun iom c =>
    let rot := (/ 4 * PI)%R in
    if pos then let om := sqrt (deltom optn dt * IZR iom) in (om * (fst c * cos rot - snd c * sin rot), om * (snd c * cos rot + fst c * sin rot))%R
    else let om := (1 / sqrt (deltom optn dt * IZR iom))%R in (om * (fst c * cos rot + snd c * sin rot), om * (snd c * cos rot - fst c * sin rot))%R) data nsam nrec.
(** basop.c:1288-1361 *)
Definition div_som (data : Z -> R) (nsam nrec : Z) (dt fmin fmax : R) (pos : bool) : Z -> R :=
  let optn := optncr nsam in
  filtering optn (Z.max (iomin optn dt fmin) 1) (iomax optn dt fmax) (fun iom c =>
    let om := if pos then sqrt (deltom optn dt * IZR iom) else (1 / sqrt (deltom optn dt * IZR iom))%R in (om * fst c, om * snd c)%R) data nsam nrec.
(** basop.c:1385-1456 *)
Definition divk (data : Z -> R) (nsam nrec : Z) (dt fmin fmax c : R) (pos : bool) : Z -> R :=
  let optn := optncr nsam in
  filtering optn (Z.max (iomin optn dt fmin) 1) (iomax optn dt fmax) (fun iom z =>
    let om := (deltom optn dt * IZR iom)%R in let k := (om / c)%R in
    if pos then (k * fst z, k * snd z)%R else (fst z / k, snd z / k)%R) data nsam nrec.
(** basop.c:273-391: the choice of the operation *)
Definition basop (op : operation) (data : Z -> R) (nsam nrec : Z) (dt fmin fmax : R) : Z -> R :=
  match op with
  | Shift tau => timeShift (optncr nsam) data nsam nrec dt tau fmin fmax
  | Rotate parts => phaseRot data nsam nrec dt parts fmin fmax
  | Jom => timeDiff data nsam nrec dt fmin fmax true
  | Jom_i => timeDiff data nsam nrec dt fmin fmax false
  | Sjom => div_sjom data nsam nrec dt fmin fmax true
  | Sjom_i => div_sjom data nsam nrec dt fmin fmax false
  | Som => div_som data nsam nrec dt fmin fmax true
  | Som_i => div_som data nsam nrec dt fmin fmax false
  | Sk c => sqrtk data nsam nrec dt fmin fmax c true
  | Sk_i c => sqrtk data nsam nrec dt fmin fmax c false
  | K_i c => divk data nsam nrec dt fmin fmax c false
  end.
(** basop.c:214: fmax if it is not given *)
Definition default_fmax (dt : R) : R := (1 / (2 * dt))%R.

(** basop.c:641-664, 685-708 *)
Definition analytic (data : Z -> R) (nsam nrec optn : Z) : Z -> C :=
  let nfreq := optn / 2 + 1 in
  let c := fold_left (fun c ix =>
    let c := fold_left (fun c j => upd c (ix * optn + j) (data (ix * nsam + j)%Z, 0)%R) (range 0 nsam) c in
    fold_left (fun c j => upd c (ix * optn + j) (0, 0)%R) (range nsam optn) c) (range 0 nrec) junkc in
  let c := ccmfft c optn nrec optn (-1) in
  let c := fold_left (fun c ix => fold_left (fun c j => upd c (ix * optn + j) (0, 0)%R) (range nfreq optn) c) (range 0 nrec) c in
  ccmfft c optn nrec optn 1.
(** basop.c:631-673 *)
Definition hilbertTrans (data : Z -> R) (nsam nrec : Z) : Z -> R :=
  let optn := optncr nsam in let c := analytic data nsam nrec optn in
  fold_left (fun d ix => fold_left (fun d j => upd d (ix * nsam + j) (snd (c (ix * optn + j)%Z) * (1 / IZR optn))%R) (range 0 nsam) d) (range 0 nrec) data.
(** basop.c:1636-1653 *)
Definition rcabs (z : C) : R :=
  let x := Rabs (fst z) in let y := Rabs (snd z) in
  if Req_EM_T x 0 then y else if Req_EM_T y 0 then x
  else if Rlt_dec y x then let temp := (y / x)%R in (x * sqrt (1 + temp * temp))%R
  else let temp := (x / y)%R in (y * sqrt (1 + temp * temp))%R.
(** basop.c:675-717 *)
Definition Envelope (data : Z -> R) (nsam nrec : Z) : Z -> R :=
  let optn := optncr nsam in let c := analytic data nsam nrec optn in
  fold_left (fun d ix => fold_left (fun d j => upd d (ix * nsam + j) (rcabs (c (ix * optn + j)%Z) * (2 / IZR optn))%R) (range 0 nsam) d) (range 0 nrec) data.
(** basop.c:719-761 *)
Definition conjugate (data : Z -> R) (nsam nrec : Z) : Z -> R :=
  let optn := optncr nsam in let ntdiff := optn - nsam in let nfreq := optn / 2 + 1 in
  let rdata := pad_data data nsam nrec optn junkr in
  let cdata := rcmfft rdata junkc optn nrec optn nfreq (-1) in
  let cdata := fold_left (fun c ix => fold_left (fun c j => upd c (ix * nfreq + j) (fst (c (ix * nfreq + j)%Z), - snd (c (ix * nfreq + j)%Z))%R) (range 0 nfreq) c) (range 0 nrec) cdata in
  let rdata := crmfft cdata rdata optn nrec nfreq optn 1 in
  fold_left (fun d ix => fold_left (fun d it => upd d (ix * nsam + it) (1 / IZR optn * rdata (ix * optn + it + ntdiff)%Z)%R) (range 0 nsam) d) (range 0 nrec) data.
End FUNCTIONS.

(** basop.c:291-296: number of the first sample written to the headers after the conjugate, in units of the time step *)
Definition conjugate_f1 (n1 : Z) : Z := - (n1 - 1).
(** basop.c:1363-1383, for one trace; the copy rdata of the trace is read at the index first, data is written at the second *)
Definition rotate_accesses (nsam nrot : Z) : list (Z * Z) :=
  map (fun it => (it, nrot + it)) (range 0 (nsam - nrot)) ++ map (fun it => (nsam - nrot + it, it)) (range 0 nrot).
Definition timeRotate (data : Z -> R) (nsam nrec nrot : Z) : Z -> R :=
  fold_left (fun d ix => let rdata := fun t => d (ix * nsam + t) in
    fold_left (fun d p => upd d (ix * nsam + snd p) (rdata (fst p))) (rotate_accesses nsam nrot) d) (range 0 nrec) data.
(** conversion of a number to int: towards zero *)
Definition to_int (x : R) : Z := if Rle_dec 0 x then Int_part x else - Int_part (- x).
(** basop.c:370-371: the number of samples that is used; the conversion to int binds stronger than the division *)
Definition nrot_used (trot d1 : R) : Z := if Rlt_dec 0 trot then to_int (IZR (to_int (trot + / 2 * d1)) / d1) else to_int (IZR (to_int (trot - / 2 * d1)) / d1).
(** basop.c:1573-1586 *)
Definition rma (data : Z -> R) (nsam nrec : Z) : Z -> R :=
  let avg := (fold_left (fun a ix => fold_left (fun a it => a + data (ix * nsam + it)%Z) (range 0 nsam) a) (range 0 nrec) 0 / IZR (nrec * nsam))%R in
  fold_left (fun d ix => fold_left (fun d it => upd d (ix * nsam + it) (d (ix * nsam + it)%Z - avg)%R) (range 0 nsam) d) (range 0 nrec) data.
(** basop.c:1588-1599 *)
Definition rmat (data : Z -> R) (nsam nrec : Z) : Z -> R :=
  fold_left (fun d ix =>
    let avg := (fold_left (fun a it => a + d (ix * nsam + it)%Z) (range 0 nsam) 0 / IZR nsam)%R in
    fold_left (fun d it => upd d (ix * nsam + it) (d (ix * nsam + it)%Z - avg)%R) (range 0 nsam) d) (range 0 nrec) data.
