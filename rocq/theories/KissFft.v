(** Model of the mixed-radix complex Fourier transform FFTlib/kiss_fft.c.

    Numbers are the real numbers of the standard library: rounding is not modelled.  Complex numbers
    are pairs, arrays are functions from the index, pointers are offsets in them. *)
From Coq Require Import ZArith Reals List Lia.
From Verif Require Import FdKernels Marchenko.
Import ListNotations.
Local Open Scope Z_scope.

(** kiss_fft.h:193-235: C_MUL, C_ADD, C_SUB, S_MUL; C_FIXDIV does nothing *)
Notation C := (R * R)%type.
Definition cmul (a b : C) : C := (fst a * fst b - snd a * snd b, fst a * snd b + snd a * fst b)%R.
Definition cadd (a b : C) : C := (fst a + fst b, snd a + snd b)%R.
Definition csub (a b : C) : C := (fst a - fst b, snd a - snd b)%R.

(** kiss_fft.h:133-139: struct kiss_fft_state *)
Record kiss_fft_state := { nfft : Z; inverse : bool; factors : list (Z * Z); twiddles : Z -> C }.

(** kiss_fft.c:22-43: kf_bfly2, one iteration of the loop *)
Definition kf_bfly2 (Fout fstride m : Z) (tw : Z -> C) (mem : Z -> C) (k : Z) : Z -> C :=
  let t := cmul (mem (Fout + m + k)) (tw (k * fstride)) in
  let mem := upd mem (Fout + m + k) (csub (mem (Fout + k)) t) in
  upd mem (Fout + k) (cadd (mem (Fout + k)) t).
(** kiss_fft.c:45-91: kf_bfly4, one iteration *)
Definition kf_bfly4 (Fout fstride m : Z) (tw : Z -> C) (inv : bool) (mem : Z -> C) (k : Z) : Z -> C :=
  let s0 := cmul (mem (Fout + m + k)) (tw (k * fstride)) in
  let s1 := cmul (mem (Fout + 2 * m + k)) (tw (k * (fstride * 2))) in
  let s2 := cmul (mem (Fout + 3 * m + k)) (tw (k * (fstride * 3))) in
  let s5 := csub (mem (Fout + k)) s1 in
  let f := cadd (mem (Fout + k)) s1 in
  let s3 := cadd s0 s2 in
  let s4 := csub s0 s2 in
  let mem := upd mem (Fout + 2 * m + k) (csub f s3) in
  let mem := upd mem (Fout + k) (cadd f s3) in
  if inv then
    upd (upd mem (Fout + m + k) (fst s5 - snd s4, snd s5 + fst s4)%R) (Fout + 3 * m + k) (fst s5 + snd s4, snd s5 - fst s4)%R
  else
    upd (upd mem (Fout + m + k) (fst s5 + snd s4, snd s5 - fst s4)%R) (Fout + 3 * m + k) (fst s5 - snd s4, snd s5 + fst s4)%R.
(** kiss_fft.c:93-135: kf_bfly3, one iteration *)
Definition kf_bfly3 (Fout fstride m : Z) (tw : Z -> C) (mem : Z -> C) (k : Z) : Z -> C :=
  let epi3 := tw (fstride * m) in
  let f := mem (Fout + k) in
  let s1 := cmul (mem (Fout + m + k)) (tw (k * fstride)) in
  let s2 := cmul (mem (Fout + 2 * m + k)) (tw (k * (fstride * 2))) in
  let s3 := cadd s1 s2 in
  let s0 := csub s1 s2 in
  let fm := (fst f - fst s3 * / 2, snd f - snd s3 * / 2)%R in
  let s0 := (fst s0 * snd epi3, snd s0 * snd epi3)%R in
  let mem := upd mem (Fout + k) (cadd f s3) in
  let mem := upd mem (Fout + 2 * m + k) (fst fm + snd s0, snd fm - fst s0)%R in
  upd mem (Fout + m + k) (fst fm - snd s0, snd fm + fst s0)%R.
(** kiss_fft.c:137-196: kf_bfly5, one iteration *)
Definition kf_bfly5 (Fout fstride m : Z) (tw : Z -> C) (mem : Z -> C) (u : Z) : Z -> C :=
  let ya := tw (fstride * m) in
  let yb := tw (fstride * 2 * m) in
  let s0 := mem (Fout + u) in
  let s1 := cmul (mem (Fout + m + u)) (tw (u * fstride)) in
  let s2 := cmul (mem (Fout + 2 * m + u)) (tw (2 * u * fstride)) in
  let s3 := cmul (mem (Fout + 3 * m + u)) (tw (3 * u * fstride)) in
  let s4 := cmul (mem (Fout + 4 * m + u)) (tw (4 * u * fstride)) in
  let s7 := cadd s1 s4 in
  let s10 := csub s1 s4 in
  let s8 := cadd s2 s3 in
  let s9 := csub s2 s3 in
  let mem := upd mem (Fout + u) (fst s0 + (fst s7 + fst s8), snd s0 + (snd s7 + snd s8))%R in
  let s5 := (fst s0 + fst s7 * fst ya + fst s8 * fst yb, snd s0 + snd s7 * fst ya + snd s8 * fst yb)%R in
  let s6 := (snd s10 * snd ya + snd s9 * snd yb, - (fst s10 * snd ya) - fst s9 * snd yb)%R in
  let mem := upd mem (Fout + m + u) (csub s5 s6) in
  let mem := upd mem (Fout + 4 * m + u) (cadd s5 s6) in
  let s11 := (fst s0 + fst s7 * fst yb + fst s8 * fst ya, snd s0 + snd s7 * fst yb + snd s8 * fst ya)%R in
  let s12 := (- (snd s10 * snd yb) + snd s9 * snd ya, fst s10 * snd yb - fst s9 * snd ya)%R in
  let mem := upd mem (Fout + 2 * m + u) (cadd s11 s12) in
  upd mem (Fout + 3 * m + u) (csub s11 s12).
(** kiss_fft.c:199-236: kf_bfly_generic.  The sum for output k; twidx is kept below Norig by one
    subtraction. *)
Definition generic_sum (fstride Norig p : Z) (tw : Z -> C) (scratch : Z -> C) (k : Z) : C :=
  snd (fold_left (fun (s : Z * C) q =>
    let twidx := fst s + fstride * k in
    let twidx := if Norig <=? twidx then twidx - Norig else twidx in
    (twidx, cadd (snd s) (cmul (scratch q) (tw twidx)))) (range 1 p) (0, scratch 0)).
(** one iteration of its loop: the p values are copied to scratch, then all p are replaced; the sum is
    formed before it is stored, where the code accumulates in the array *)
Definition kf_bfly_generic (Fout fstride Norig m p : Z) (tw : Z -> C) (mem : Z -> C) (u : Z) : Z -> C :=
  let scratch := fun q => mem (Fout + (u + q * m)) in
  fold_left (fun mem q1 => upd mem (Fout + (u + q1 * m)) (generic_sum fstride Norig p tw scratch (u + q1 * m))) (range 0 p) mem.

(** kiss_fft.c:238-304: kf_work.  f is an offset in the input fin; an exhausted list of factors is an
    error that kf_factor excludes (here: nothing is done). *)
Fixpoint kf_work (fs : list (Z * Z)) (Fout f fstride in_stride : Z) (st : kiss_fft_state) (fin : Z -> C) (mem : Z -> C) : Z -> C :=
  match fs with
  | [] => mem
  | (p, m) :: rest =>
      let mem := if m =? 1
                 then fold_left (fun mem q => upd mem (Fout + q) (fin (f + q * (fstride * in_stride)))) (range 0 p) mem
                 else fold_left (fun mem q => kf_work rest (Fout + q * m) (f + q * (fstride * in_stride)) (fstride * p) in_stride st fin mem) (range 0 p) mem in
      let tw := twiddles st in
      let loop (body : (Z -> C) -> Z -> (Z -> C)) := fold_left body (range 0 m) mem in
      if p =? 2 then loop (kf_bfly2 Fout fstride m tw)
      else if p =? 3 then loop (kf_bfly3 Fout fstride m tw)
      else if p =? 4 then loop (kf_bfly4 Fout fstride m tw (inverse st))
      else if p =? 5 then loop (kf_bfly5 Fout fstride m tw)
      else loop (kf_bfly_generic Fout fstride (nfft st) m p tw)
  end.

(** kiss_fft.c:319-325: the next value of p; floor(sqrt((double)n)) is Z.sqrt n *)
Definition next_p (n root p : Z) : Z :=
  let p := if p =? 4 then 2 else if p =? 2 then 3 else p + 2 in
  if root <? p then n else p.
(** kiss_fft.c:318-326: while (n % p) *)
Fixpoint find_p (fuel : nat) (n root p : Z) : option Z :=
  match fuel with
  | O => None
  | S fuel => if n mod p =? 0 then Some p else find_p fuel n root (next_p n root p)
  end.
(** kiss_fft.c:317-330: do { ... } while (n > 1) *)
Fixpoint factor_loop (fuel : nat) (n root p : Z) : option (list (Z * Z)) :=
  match fuel with
  | O => None
  | S fuel =>
      match find_p (Z.to_nat root + 6) n root p with
      | None => None
      | Some p =>
          let n := n / p in
          if 1 <? n then match factor_loop fuel n root p with Some l => Some ((p, n) :: l) | None => None end
          else Some [(p, n)]
      end
  end.
(** kiss_fft.c:310-331: kf_factor; the loops end within the given number of iterations (C31_factors) *)
Definition kf_factor (n : Z) : option (list (Z * Z)) := factor_loop (Z.to_nat n) n (Z.sqrt n) 4.

(** kiss_fft.c:340-370: kiss_fft_alloc with inverse_fft = 0; phase = -2*pi*i/nfft *)
Definition kiss_fft_alloc (n : Z) : option kiss_fft_state :=
  match kf_factor n with
  | Some l => Some {| nfft := n; inverse := false; factors := l; twiddles := fun i => (cos (-2 * PI * IZR i / IZR n), sin (-2 * PI * IZR i / IZR n))%R |}
  | None => None
  end.
(** kiss_fft.c:373-392: kiss_fft: the direction is set in st, the imaginary parts of the twiddles change
    sign if the direction is not that of the previous call; the result is the new st, the new value of
    previous_sign and the output *)
Definition kiss_fft (st : kiss_fft_state) (fin : Z -> C) (ntfft sign previous_sign : Z) : kiss_fft_state * Z * (Z -> C) :=
  let tw := if previous_sign =? sign then twiddles st
            else fold_left (fun tw i => upd tw i (fst (tw i), snd (tw i) * -1)%R) (range 0 ntfft) (twiddles st) in
  let st := {| nfft := nfft st; inverse := sign =? 1; factors := factors st; twiddles := tw |} in
  let tmpbuf := kf_work (factors st) 0 0 1 1 st fin (fun _ => (0, 0)%R) in
  (st, sign, fold_left (fun mem i => upd mem i (tmpbuf i)) (range 0 (nfft st)) fin).
