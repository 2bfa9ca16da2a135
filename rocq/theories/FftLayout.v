(** Model of FFTlib/xt2wx.c, wx2xt.c, xt2wkx.c and wkx2xt.c: transforms of a gather of traces.

    The multiple transforms rcmfft, crmfft and ccmfft are modelled by the discrete Fourier transform of every
    vector (FftSpec.v), in exact arithmetic; C31, C33 and C59 prove that the routines behind them compute it
    for the lengths they handle.  The two-dimensional special cases of rcm_fft and crm_fft (pfa2rc, pfa2cr)
    and the Mayer transform are not modelled.  Arrays are functions from the index. *)
From Coq Require Import ZArith Reals List.
From Verif Require Import FdKernels Marchenko KissFft FftSpec.
Import ListNotations.
Local Open Scope Z_scope.

(** FFTlib/rcmfft.c:58-183, lib_fft.c rcm_fft: n2 real vectors of n1 samples *)
Definition rcmfft (rdata : Z -> R) (cdata : Z -> C) (n1 n2 ldr ldc sign : Z) : Z -> C :=
  fold_left (fun c i => fold_left (fun c k => upd c (i * ldc + k) (dft n1 sign (real_values (fun t => rdata (i * ldr + t))) k)) (range 0 (n1 / 2 + 1)) c) (range 0 n2) cdata.
(** FFTlib/crmfft.c, lib_fft.c crm_fft *)
Definition crmfft (cdata : Z -> C) (rdata : Z -> R) (n1 n2 ldc ldr sign : Z) : Z -> R :=
  fold_left (fun r i => fold_left (fun r t => upd r (i * ldr + t) (fst (dft n1 sign (hermitian n1 (fun k => cdata (i * ldc + k))) t))) (range 0 n1) r) (range 0 n2) rdata.
(** FFTlib/ccmfft.c, lib_fft.c:286-327 ccm_fft, in place: row is the vector before it is transformed *)
Definition ccmfft (cdata : Z -> C) (n1 n2 ld1 sign : Z) : Z -> C :=
  fold_left (fun c i => let row := fun t => c (i * ld1 + t) in fold_left (fun c k => upd c (i * ld1 + k) (dft n1 sign row k)) (range 0 n1) c) (range 0 n2) cdata.

(** xt2wx.c:27-47; the contents of the new array cdum are arbitrary *)
Definition xt2wx (junk : Z -> C) (rdata : Z -> R) (cdata : Z -> C) (nt nx ldr ldc : Z) : Z -> C :=
  let ld1 := (nt + 2) / 2 in
  let cdum := rcmfft rdata junk nt nx ldr ld1 (-1) in
  fold_left (fun c i => fold_left (fun c j => upd c (j * ldc + i) (cdum (i * ld1 + j))) (range 0 ld1) c) (range 0 nx) cdata.
(** wx2xt.c:27-53 *)
Definition wx2xt (junk : Z -> C) (cdata : Z -> C) (rdata : Z -> R) (nt nx ldc ldr : Z) : Z -> R :=
  let scl := (1 / IZR nt)%R in
  let ld1 := (nt + 2) / 2 in
  let cdum := fold_left (fun c i => fold_left (fun c j => upd c (i * ld1 + j) (cdata (j * ldc + i))) (range 0 ld1) c) (range 0 nx) junk in
  let rdata := crmfft cdum rdata nt nx ld1 ldr 1 in
  fold_left (fun r i => fold_left (fun r j => upd r (i * ldr + j) (r (i * ldr + j)%Z * scl)%R) (range 0 ldr) r) (range 0 nx) rdata.
(** xt2wkx.c:28-56, for 0 <= xorig < nx *)
Definition xt2wkx (junk : Z -> C) (rdata : Z -> R) (cdata : Z -> C) (nt nx ldr ldc xorig : Z) : Z -> C :=
  let ld1 := (nt + 2) / 2 in
  let cdum := rcmfft rdata junk nt nx ldr ld1 (-1) in
  let cdata := fold_left (fun c j =>
    let c := fold_left (fun c i => upd c (j * ldc + (i - xorig)) (cdum (i * ld1 + j))) (range xorig nx) c in
    fold_left (fun c i => upd c (j * ldc + (nx - xorig + i)) (cdum (i * ld1 + j))) (range 0 xorig) c) (range 0 ld1) cdata in
  ccmfft cdata nx ld1 ldc 1.
(** wkx2xt.c:28-64: the real array; cdata is overwritten too *)
Definition wkx2xt (junk : Z -> C) (cdata : Z -> C) (rdata : Z -> R) (nt nx ldc ldr xorig : Z) : Z -> R :=
  let scl := (1 / IZR (nt * nx))%R in
  let ld1 := (nt + 2) / 2 in
  let norig := nx - xorig in
  let cdata := ccmfft cdata nx ld1 ldc (-1) in
  let cdum := fold_left (fun c j =>
    let c := fold_left (fun c i => upd c ((i + xorig) * ld1 + j) (cdata (j * ldc + i))) (range 0 norig) c in
    fold_left (fun c i => upd c (i * ld1 + j) (cdata (j * ldc + i + norig))) (range 0 xorig) c) (range 0 ld1) junk in
  let rdata := crmfft cdum rdata nt nx ld1 ldr 1 in
  fold_left (fun r i => fold_left (fun r j => upd r (i * ldr + j) (r (i * ldr + j)%Z * scl)%R) (range 0 ldr) r) (range 0 nx) rdata.
