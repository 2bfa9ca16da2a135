(** Model of FFTlib/lib_fft.c: cc1_fft with its static state, and the direct transforms ccdft, rcdft and
    crdft; and of pfarc and pfacr of FFTlib/pfafft.c.

    Numbers are real numbers; rounding is not modelled.  Arrays are functions from the index. *)
From Coq Require Import ZArith Reals List Bool Lia.
From Verif Require Import FdKernels FftSize Marchenko KissFft Pfa.
Import ListNotations.
Local Open Scope Z_scope.

(** ** cc1_fft *)
(** kiss_fft.c:15 previous_sign, and lib_fft.c:228-229 st[id] and nprev[id]; nprev[id] = 0 is None *)
Record fft_state := { previous_sign : Z; cfg : Z -> option (Z * kiss_fft_state) }.
(** C gives statics the value 0 *)
Definition fft_init : fft_state := {| previous_sign := 0; cfg := fun _ => None |}.
(** lib_fft.c:240: NINT(pow(2.0, (double)NINT(log((double)n)/log(2.0)))) == n, for n >= 1, without
    rounding: n is a power of two *)
Definition is_power_of_two (n : Z) : bool := n =? 2 ^ Z.log2 n.
(** lib_fft.c:240-241: the prime-factor transform is used *)
Definition prime_factor (n : Z) : bool := negb (is_power_of_two n) && (npfa n =? n).
(** a call of cc1_fft by a thread *)
Record call := { thread : Z; length_ : Z; direction : Z; values : Z -> C }.
(** lib_fft.c:243-247 and 252-256: a new state if the length has changed; kiss_fft_alloc sets
    previous_sign to -1 (kiss_fft.c:366-367) *)
Definition prepare (g : fft_state) (c : call) : option fft_state :=
  let n := length_ c in
  if prime_factor n then Some g
  else
    let fresh := match kiss_fft_alloc n with Some st => Some {| previous_sign := -1; cfg := upd (cfg g) (thread c) (Some (n, st)) |} | None => None end in
    match cfg g (thread c) with
    | Some (nprev, st) => if n =? nprev then Some g else fresh
    | None => fresh
    end.
(** lib_fft.c:241, 248 and 257: the transform itself *)
Definition transform (g : fft_state) (c : call) : option (fft_state * (Z -> C)) :=
  let n := length_ c in
  if prime_factor n then Some (g, pfacc (direction c) n (values c))
  else
    match cfg g (thread c) with
    | Some (nprev, st) =>
        let '(st', prev', out) := kiss_fft st (values c) n (direction c) (previous_sign g) in
        Some ({| previous_sign := prev'; cfg := upd (cfg g) (thread c) (Some (nprev, st')) |}, out)
    | None => None
    end.
(** lib_fft.c:224-284: cc1_fft *)
Definition cc1_fft (g : fft_state) (c : call) : option (fft_state * (Z -> C)) :=
  match prepare g c with Some g => transform g c | None => None end.
(** calls one after the other *)
Fixpoint run (g : fft_state) (cs : list call) : option (list (Z -> C)) :=
  match cs with
  | [] => Some []
  | c :: cs =>
      match cc1_fft g c with
      | Some (g, out) => match run g cs with Some outs => Some (out :: outs) | None => None end
      | None => None
      end
  end.
(** calls by several threads: each call is two steps, and the steps of different threads interleave; each
    of the two steps is taken as one unit *)
Inductive event := Prepare (c : call) | Transform (c : call).
Fixpoint run_events (g : fft_state) (es : list event) : option (list (call * (Z -> C))) :=
  match es with
  | [] => Some []
  | Prepare c :: es => match prepare g c with Some g => run_events g es | None => None end
  | Transform c :: es =>
      match transform g c with
      | Some (g, out) => match run_events g es with Some outs => Some ((c, out) :: outs) | None => None end
      | None => None
      end
  end.

(** ** direct transforms *)
(** lib_fft.c:337-346: the table of ccdft *)
Definition dft_table (n : Z) : Z -> R :=
  fold_left (fun t i => upd (upd t (2 * i) (cos (2 * PI / IZR n * IZR i))) (2 * i + 1) (sin (2 * PI / IZR n * IZR i))) (range 0 n) (fun _ => 0%R).
(** lib_fft.c:329-365: ccdft; the static table and its length are kept between calls *)
Definition ccdft (t : Z * (Z -> R)) (cdata : Z -> C) (n sign : Z) : (Z * (Z -> R)) * (Z -> C) :=
  let t := if fst t =? n then t else (n, dft_table n) in
  let csval := snd t in
  let tmp i := fold_left (fun (s : C) j => let k := 2 * ((i * j) mod n) in
    (fst s + (fst (cdata j) * csval k - IZR sign * snd (cdata j) * csval (k + 1)%Z), snd s + (snd (cdata j) * csval k + IZR sign * fst (cdata j) * csval (k + 1)%Z))%R) (range 0 n) (0, 0)%R in
  (t, fold_left (fun c i => upd c i (tmp i)) (range 0 n) cdata).
(** lib_fft.c:382-395 and 426-439: the table with the entries of the products i*j; a is the number of
    values of i and b of j *)
Definition product_table (n a b : Z) : Z -> R :=
  fold_left (fun t i => fold_left (fun t j => upd (upd t (2 * i * j) (cos (2 * PI / IZR n * IZR (i * j)))) (2 * i * j + 1) (sin (2 * PI / IZR n * IZR (i * j)))) (range 0 b) t) (range 0 a) (fun _ => 0%R).
(** lib_fft.c:367-410: rcdft of thread id with table t; nc = (n+2)/2 *)
Definition rcdft (t : Z * (Z -> R)) (rdata : Z -> R) (cdata : Z -> C) (n sign : Z) : (Z * (Z -> R)) * (Z -> C) :=
  let nc := (n + 2) / 2 in
  let t := if fst t =? n then t else (n, product_table n nc n) in
  let csval := snd t in
  let sum i := fold_left (fun s j => (fst s + rdata j * csval (2 * i * j)%Z, snd s + IZR sign * rdata j * csval (2 * i * j + 1)%Z)%R) (range 0 n) (0, 0)%R in
  (t, fold_left (fun c i => upd c i (sum i)) (range 0 nc) cdata).
(** lib_fft.c:412-466: crdft *)
Definition crdft (t : Z * (Z -> R)) (cdata : Z -> C) (rdata : Z -> R) (n sign : Z) : (Z * (Z -> R)) * (Z -> R) :=
  let nc := (n + 2) / 2 in
  let t := if fst t =? n then t else (n, product_table n n nc) in
  let csval := snd t in
  let sum i := fold_left (fun s j => s + (fst (cdata j) * csval (2 * i * j)%Z - IZR sign * snd (cdata j) * csval (2 * i * j + 1)%Z))%R (range 0 nc) 0%R in
  let rdata := fold_left (fun r i => upd r i (2 * sum i - fst (cdata 0%Z)))%R (range 0 n) rdata in
  let scl := (IZR n * / 4)%R in
  (t, if Z.odd n then rdata
      else fold_left (fun r i => upd (upd r (2 * i) (r (2 * i)%Z - scl)%R) (2 * i + 1) (r (2 * i + 1)%Z + scl)%R) (range 0 (nc - 1)) rdata).

(** ** real transforms of even length *)
(** the two components of the cosine-sine recurrence, pfafft.c:1304-1306, 1358-1360 *)
Definition next_w (wpr wpi : R) (w : R * R) : R * R :=
  (fst w + (fst w * wpr - snd w * wpi), snd w + (snd w * wpr + fst w * wpi))%R.
(** pfafft.c:1347-1361: one iteration of the loop of pfarc; ir, ii are the components of cell k and jr, ji
    those of cell n/2-k; the stores are in the order of the code *)
Definition rc_step (h : Z) (wpr wpi : R) (s : (Z -> C) * (R * R)) (k : Z) : (Z -> C) * (R * R) :=
  let z := fst s in let wr := fst (snd s) in let wi := snd (snd s) in
  let sumr := (fst (z k) + fst (z (h - k)%Z))%R in
  let sumi := (snd (z k) + snd (z (h - k)%Z))%R in
  let difr := (fst (z k) - fst (z (h - k)%Z))%R in
  let difi := (snd (z k) - snd (z (h - k)%Z))%R in
  let tempr := (wi * difr + wr * sumi)%R in
  let tempi := (wi * sumi - wr * difr)%R in
  (upd (upd z k (sumr + tempr, difi + tempi)%R) (h - k) (sumr - tempr, tempi - difi)%R, next_w wpr wpi (snd s)).
(** pfafft.c:1315-1362: pfarc *)
Definition pfarc (isign n : Z) (rz : Z -> R) (cz : Z -> C) : Z -> C :=
  let h := n / 2 in
  let z := fold_left (fun z k => upd z k (/ 2 * rz (2 * k)%Z, / 2 * rz (2 * k + 1)%Z)%R) (range 0 h) cz in
  let z := pfacc isign h z in
  let z := upd (upd z h (2 * (fst (z 0%Z) - snd (z 0%Z)), 0)%R) 0 (2 * (fst (z 0%Z) + snd (z 0%Z)), 0)%R in
  let theta := if isign <? 0 then (- (2 * PI / IZR n))%R else (2 * PI / IZR n)%R in
  let wtemp := sin (/ 2 * theta) in
  let wpr := (-2 * wtemp * wtemp)%R in
  let wpi := sin theta in
  fst (fold_left (fun s k => rc_step h wpr wpi s k) (range 1 (h / 2 + 1)) (z, (1 + wpr, wpi)%R)).
(** pfafft.c:1293-1307: one iteration of the loop of pfacr *)
Definition cr_step (h : Z) (wpr wpi : R) (s : (Z -> C) * (R * R)) (k : Z) : (Z -> C) * (R * R) :=
  let z := fst s in let wr := fst (snd s) in let wi := snd (snd s) in
  let sumr := (fst (z k) + fst (z (h - k)%Z))%R in
  let sumi := (snd (z k) + snd (z (h - k)%Z))%R in
  let difr := (fst (z k) - fst (z (h - k)%Z))%R in
  let difi := (snd (z k) - snd (z (h - k)%Z))%R in
  let tempr := (wi * difr - wr * sumi)%R in
  let tempi := (wi * sumi + wr * difr)%R in
  (upd (upd z k (sumr + tempr, difi + tempi)%R) (h - k) (sumr - tempr, tempi - difi)%R, next_w wpr wpi (snd s)).
(** pfafft.c:1268-1311: pfacr; the result is rz as pairs: cell k holds rz[2k] and rz[2k+1] *)
Definition pfacr_pairs (isign n : Z) (cz : Z -> C) : Z -> C :=
  let h := n / 2 in
  let z := upd cz 0 (fst (cz 0%Z) + fst (cz h), fst (cz 0%Z) - fst (cz h))%R in
  let theta := if 0 <? isign then (- (2 * PI / IZR n))%R else (2 * PI / IZR n)%R in
  let wtemp := sin (/ 2 * theta) in
  let wpr := (-2 * wtemp * wtemp)%R in
  let wpi := sin theta in
  pfacc isign h (fst (fold_left (fun s k => cr_step h wpr wpi s k) (range 1 (h / 2 + 1)) (z, (1 + wpr, wpi)%R))).
Definition pfacr (isign n : Z) (cz : Z -> C) (rz : Z -> R) : Z -> R :=
  fun i => if (0 <=? i) && (i <? n) then let p := pfacr_pairs isign n cz (i / 2) in if Z.even i then fst p else snd p else rz i.
