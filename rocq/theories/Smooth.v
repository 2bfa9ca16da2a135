(** utils/smooth.c, utils/extendModel.c, utils/truncate.c.  Numbers are real numbers, arrays functions from the index. *)
From Coq Require Import ZArith Reals List Bool.
From Verif Require Import FdKernels Marchenko.
Import ListNotations.
Local Open Scope Z_scope.

(** smooth.c:101-109: the width of the window is made odd *)
Definition make_odd (n : Z) : Z := if (Z.quot n 2) * 2 =? n then n + 1 else n.
(** the loops over receivers and time samples of r_smooth *)
Definition all_samples {S} (nrec nsam : Z) (body : S -> Z -> Z -> S) (s : S) : S := fold_left (fun s ix => fold_left (fun s it => body s ix it) (range 0 nsam) s) (range 0 nrec) s.
(** smooth.c:227-243: one sample *)
Definition smooth_one (nrec nsam ntsm nxsm : Z) (din : Z -> R) (dtmp : Z -> R) (ix it : Z) : Z -> R :=
  let ix0 := Z.max 0 (ix - Z.quot nxsm 2) in let ix1 := Z.min (ix + Z.quot (nxsm - 1) 2) (nrec - 1) in
  let it0 := Z.max 0 (it - Z.quot ntsm 2) in let it1 := Z.min (it + Z.quot (ntsm - 1) 2) (nsam - 1) in
  let '(icount, dtmp) := fold_left (fun st ixx => fold_left (fun '(icount, dtmp) itt =>
    (icount + 1, upd dtmp (ix * nsam + it) (dtmp (ix * nsam + it)%Z + din (ixx * nsam + itt)%Z)%R)) (range it0 (it1 + 1)) st) (range ix0 (ix1 + 1)) (0, dtmp) in
  upd dtmp (ix * nsam + it) (dtmp (ix * nsam + it)%Z / IZR icount)%R.
(** smooth.c:225-252: one iteration; state: din, dtmp *)
Definition smooth_iter (nrec nsam ntsm nxsm : Z) (st : (Z -> R) * (Z -> R)) : (Z -> R) * (Z -> R) :=
  let '(din, dtmp) := st in
  let dtmp := all_samples nrec nsam (fun t ix it => smooth_one nrec nsam ntsm nxsm din t ix it) dtmp in
  all_samples nrec nsam (fun '(d, t) ix it => (upd d (ix * nsam + it) (t (ix * nsam + it)), upd t (ix * nsam + it) 0%R)) (din, dtmp).
(** smooth.c:204-266; pw is the function pow of the C library *)
Definition r_smooth (pw : R -> R -> R) (power : R) (nrec nsam ntsm nxsm : Z) (niter : nat) (din dtmp : Z -> R) : Z -> R :=
  let st := all_samples nrec nsam (fun '(d, t) ix it =>
    (if Req_EM_T power 1 then d else if Req_EM_T (d (ix * nsam + it)) 0 then (if Rlt_dec power 0 then d else upd d (ix * nsam + it) (pw (d (ix * nsam + it)) power)) else upd d (ix * nsam + it) (pw (d (ix * nsam + it)) power),
     upd t (ix * nsam + it) 0%R)) (din, dtmp) in
  let '(d, _) := Nat.iter niter (smooth_iter nrec nsam ntsm nxsm) st in
  all_samples nrec nsam (fun d ix it =>
    if Req_EM_T power 1 then d else if Req_EM_T (d (ix * nsam + it)) 0 then (if Rlt_dec (1 / power) 0 then d else upd d (ix * nsam + it) (pw (d (ix * nsam + it)) (1 / power)%R)) else upd d (ix * nsam + it) (pw (d (ix * nsam + it)) (1 / power)%R)) d.

(** conversion of a floating-point number to an integer in C *)
Definition to_int (r : R) : Z := if Rlt_dec r 0 then - Int_part (- r) else Int_part r.
(** extendModel.c:97-99: one trace *)
Definition extend_trace (nabove nbelow ns : Z) (trace traceout : Z -> R) : Z -> R :=
  let o := fold_left (fun o j => upd o j (trace 0)) (range 0 nabove) traceout in
  let o := fold_left (fun o j => upd o (nabove + j) (trace j)) (range 0 ns) o in
  fold_left (fun o j => upd o (nabove + ns + j) (trace (ns - 1))) (range 0 nbelow) o.
(** extendModel.c:88-122: positions and traces written, for a file with traces of ns samples; the rest of the headers is not modelled *)
Definition extend_model (nbefore nafter nabove nbelow ns : Z) (dx scl : R) (file : list (Z * (Z -> R))) (traceout : Z -> R) : list (Z * (Z -> R)) :=
  let '(out, _, last, o) := fold_left (fun '(out, itrace, last, o) '(gx, trace) =>
    let o := extend_trace nabove nbelow ns trace o in
    let before := if itrace =? 0 then map (fun i => (to_int (IZR gx - IZR (nbefore - i) * dx * scl), o)) (range 0 nbefore) else [] in
    (out ++ before ++ [(gx, o)], itrace + 1, gx, o)) file ([], 0, 0, traceout) in
  out ++ map (fun i => (to_int (IZR last + IZR (i + 1) * dx * scl), o)) (range 0 nafter).
(** extendModel.c:85, 96: the number of samples in the headers, an unsigned short *)
Definition header_ns (nabove nbelow ns : Z) : Z := (ns + nabove + nbelow) mod 65536.

(** truncate.c:88-89: is the depth index accepted *)
Definition truncate_accepts (nz izt : Z) : bool := negb (nz <? izt) && negb (izt <? 1).
(** truncate.c:100-105 *)
Definition truncate_data (ntr nz izt : Z) (d : Z -> R) : Z -> R :=
  fold_left (fun d ix => let tmp := d (ix * nz + izt) in fold_left (fun d iz => upd d (ix * nz + iz) tmp) (range (izt + 1) nz) d) (range 0 ntr) d.
(** truncate.c:101: the elements read into tmp *)
Definition truncate_reads (ntr nz izt : Z) : list Z := map (fun ix => ix * nz + izt) (range 0 ntr).
