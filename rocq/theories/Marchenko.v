(** Model of marchenko/: mute windows (applyMute.c, applyMute_plane.c, applyMute_tshift.c, mapj.c),
    integration over the acquisition surface (synthesis.c), the iteration and the Green's functions
    (marchenko.c).

    Samples are elements of a type V with ring operations; rounding is not modelled.  Arrays are
    functions from the C index, with the flattened indices of the source.  Positions are rationals. *)
From Coq Require Import ZArith QArith List Bool Lia.
From Verif Require Import FdKernels.
Import ListNotations.
Local Open Scope Z_scope.

Definition upd {V} (m : Z -> V) (a : Z) (v : V) : Z -> V := fun x => if x =? a then v else m x.
(** mapj.c:1-8 *)
Definition mapj (j nt : Z) : Z := if nt <=? j then j - nt else if j <? 0 then nt + j else j.

(** ** windows *)
(** the loops of a window: for (j=a;j<b;j++) trace[mapj(j,nt)] = 0;
    for (j=a,l=0;j<b;j++,l++) trace[mapj(j,nt)] *= costaper[l], or costaper[smooth-l-1];
    memset(trace,0,nt) *)
Inductive wop := Mute (a b : Z) | Down (a b : Z) | Up (a b : Z) | Clear.
(** applyMute.c:31-224, one trace *)
Definition window (above nt tmute ts shift smooth : Z) : list wop :=
  let t1 := - 2 * ts + tmute - shift in
  let t2 := nt + 1 - tmute + shift + 2 * ts in
  if above =? 1 then [Mute 0 (t1 - smooth); Up (t1 - smooth) t1]
  else if above =? 0 then
    if nt / 2 <=? tmute then [Clear]
    else [Down (t1 - smooth) t1; Mute t1 t2; Up t2 (t2 + smooth)]
  else if (above =? 4) || (above =? -4) then
    [Mute 0 (t1 - smooth); Up (t1 - smooth) t1; Down t2 (t2 + smooth); Mute (t2 + smooth) nt]
  else if above =? 6 then
    if nt / 2 <=? tmute then [Clear]
    else let t1 := - 2 * ts + tmute + shift in let t2 := nt - tmute + shift in
         [Down (t1 - smooth) t1; Mute t1 t2; Up t2 (t2 + smooth)]
  else if above =? -6 then
    if nt / 2 <=? tmute then [Clear]
    else let t2 := nt - tmute - shift in
         [Down (t1 - smooth) t1; Mute t1 t2; Up t2 (t2 + smooth)]
  else if above =? 10 then
    let t1 := tmute + shift in let t2 := nt - tmute + shift in
    [Mute 0 (t1 - smooth); Up (t1 - smooth) t1; Down t2 (t2 + smooth); Mute (t2 + smooth) nt]
  else if above =? -2 then
    if nt / 2 <=? tmute then [Clear]
    else let t1 := - 2 * ts + tmute + shift in
         [Down t1 (t1 + smooth); Mute (t1 + smooth + 1) (nt + 1 - tmute - shift - smooth); Up (nt - tmute - shift - smooth) (nt - tmute - shift)]
  else if above =? -1 then
    let t1 := ts + tmute - shift in [Down t1 (t1 + smooth); Mute (t1 + smooth) nt]
  else if (above =? 2) || (above =? 7) then
    [Mute 0 (tmute - shift - smooth); Up (tmute - shift - smooth) (tmute - shift); Down (tmute + shift) (tmute + shift + smooth); Mute (tmute + shift + smooth) nt]
  else if above =? -7 then
    [Down (tmute - shift - smooth) (tmute - shift); Mute (tmute - shift) (tmute + shift); Up (tmute + shift) (tmute + shift + smooth)]
  else [].
(** applyMute_plane.c:37-39, 53-129, one trace *)
Definition window_plane (above iter nt tmute tmutei shift smooth : Z) : list wop :=
  let above := if Z.rem iter 2 =? 0 then above else - above in
  if above =? -1 then
    [Down (tmutei - shift - smooth) (tmutei - shift); Mute (tmutei - shift) (nt + 1 - tmute + shift); Up (nt + 1 - tmute + shift) (nt + 1 - tmute + shift + smooth)]
  else if above =? 1 then
    [Down (tmute - shift - smooth) (tmute - shift); Mute (tmute - shift) (nt + 1 - tmutei + shift); Up (nt + 1 - tmutei + shift) (nt + 1 - tmutei + shift + smooth)]
  else if above =? 4 then
    [Down (1 - tmutei + shift - smooth) (1 - tmutei + shift); Mute (1 - tmutei + shift) (tmute - shift - smooth); Up (tmute - shift - smooth) (tmute - shift)]
  else if above =? -4 then
    [Down (1 - tmute + shift - smooth) (1 - tmute + shift); Mute (1 - tmute + shift) (tmutei - shift - smooth); Up (tmutei - shift - smooth) (tmutei - shift)]
  else if above =? -11 then [Down (tmutei - shift - smooth) (tmutei - shift); Mute (tmutei - shift) nt]
  else if above =? 11 then [Down (tmute - shift - smooth) (tmute - shift); Mute (tmute - shift) nt]
  else if above =? 44 then [Mute 0 (tmute - shift - smooth); Up (tmute - shift - smooth) (tmute - shift)]
  else if above =? -44 then [Mute 0 (tmutei - shift - smooth); Up (tmutei - shift - smooth) (tmutei - shift)]
  else [].
(** applyMute_tshift.c:49-101, one trace; the assignments to above carry over to the next trace
    but change nothing there *)
Definition window_tshift (above iter nt tmute ts shift smooth : Z) : list wop :=
  let above' := if Z.rem iter 2 =? 0 then above else if above =? 0 then -1 else if above =? 4 then -4 else above in
  let tmute := if Z.rem iter 2 =? 0 then tmute else tmute - 2 * ts in
  if above' =? -1 then
    [Down (tmute - shift - smooth) (tmute - shift); Mute (tmute - shift) (nt + 1 - tmute + shift - 2 * ts);
     Up (nt + 1 - (tmute + 2 * ts) + shift) (nt + 1 - (tmute + 2 * ts) + shift + smooth)]
  else if above' =? 0 then
    [Down (tmute - shift - smooth) (tmute - shift); Mute (tmute - shift) (nt + 1 - tmute + shift + 2 * ts);
     Up (nt + 1 - tmute + 2 * ts + shift) (nt + 1 - tmute + 2 * ts + shift + smooth)]
  else if above' =? 4 then
    [Down (1 - tmute + 2 * ts + shift - smooth) (1 - tmute + 2 * ts + shift); Mute (1 - tmute + 2 * ts + shift) (tmute - shift - smooth);
     Up (tmute - shift - smooth) (tmute - shift)]
  else if above' =? -4 then
    [Down (1 - (tmute + 2 * ts) + shift - smooth) (1 - (tmute + 2 * ts) + shift); Mute (1 - (tmute + 2 * ts) + shift) (tmute - shift - smooth);
     Up (tmute - shift - smooth) (tmute - shift)]
  else [].
(** the indices of the trace that a window accesses *)
Definition touched (nt : Z) (o : wop) : list Z :=
  match o with Mute a b | Down a b | Up a b => map (fun j => mapj j nt) (range a b) | Clear => range 0 nt end.

(** ** positions *)
(** NINT: synthesis.c:26, conversion to int truncates *)
Definition NINT (q : Q) : Z :=
  let r := (if Qle_bool q 0 then q - (1 # 2) else q + (1 # 2))%Q in Z.quot (Qnum r) (Z.pos (Qden r)).
(** synthesis.c:65-68, 452-455 *)
Definition lower (fxsb : Q) : Q := if Qle_bool 0 fxsb then ((999 # 1000) * fxsb)%Q else ((1001 # 1000) * fxsb)%Q.
Definition upper (fxse : Q) : Q := if Qle_bool fxse 0 then ((999 # 1000) * fxse)%Q else ((1001 # 1000) * fxse)%Q.
Definition in_aperture (fxsb fxse x : Q) : bool := Qle_bool (lower fxsb) x && Qle_bool x (upper fxse).
Definition position (fxsb dxs x : Q) : Z := NINT ((x - fxsb) / dxs).
(** linearsearch, synthesis.c:541-550; the array is the list of its first N elements *)
Fixpoint linearsearch (l : list Z) (v : Z) : nat :=
  match l with [] => 0%nat | x :: l => if v =? x then 0%nat else S (linearsearch l v) end.
(** the branches at synthesis.c:485-493, 512-520; the counts are not used *)
Definition add_position (l : list Z) (v : Z) : list Z := if (linearsearch l v <? length l)%nat then l else l ++ [v].
Fixpoint insert (v : Z) (l : list Z) : list Z := match l with [] => [v] | x :: r => if v <=? x then v :: l else x :: insert v r end.
(** qsort with compareInt, synthesis.c:27-28, 536: modelled by insertion sort *)
Definition isort (l : list Z) : list Z := fold_right insert [] l.
(** synthesisPositions, synthesis.c:447-539: the positions and the updated isxcount *)
Definition synthesisPositions (fxsb fxse dxs : Q) (xsrc : list Q) (isxcount : list Z) (countmin reci : Z) : list Z * list Z :=
  let p := if (reci =? 0) || (reci =? 1) then
             fold_left (fun l x => if in_aperture fxsb fxse x then add_position l (position fxsb dxs x) else l) xsrc []
           else [] in
  if reci =? 0 then (isort p, isxcount)
  else
    let p := fold_left (fun l k => if countmin <=? nth (Z.to_nat k) isxcount 0 then add_position l k else l) (range 0 (Z.of_nat (length isxcount))) p in
    (isort p, map (fun c => if countmin <=? c then c else 0) isxcount).

(** ** reading: readShotData.c:114-115, the samples after the data are cleared; sample nt-1 is the
    first of ntfft-nt cleared ones *)
Definition pad_trace {V} (zero : V) (nt ntfft : Z) (trace : Z -> V) : Z -> V :=
  if nt <? ntfft then fold_left (fun m j => upd m (nt - 1 + j) zero) (range 0 (ntfft - nt)) trace else trace.

Section Values.
Variable V : Type.
Variables (v0 v1 : V) (vadd vmul : V -> V -> V) (vopp : V -> V).
(** the cosine taper of a window, applyMute.c:22-28 *)
Variable costaper : Z -> V.

Definition run_op (base nt smooth : Z) (m : Z -> V) (o : wop) : Z -> V :=
  match o with
  | Mute a b => fold_left (fun m j => upd m (base + mapj j nt) v0) (range a b) m
  | Down a b => fold_left (fun m j => upd m (base + mapj j nt) (vmul (m (base + mapj j nt)) (costaper (j - a)))) (range a b) m
  | Up a b => fold_left (fun m j => upd m (base + mapj j nt) (vmul (m (base + mapj j nt)) (costaper (smooth - (j - a) - 1)))) (range a b) m
  | Clear => fold_left (fun m j => upd m (base + j) v0) (range 0 nt) m
  end.
Definition run_window (base nt smooth : Z) (w : list wop) (m : Z -> V) : Z -> V := fold_left (run_op base nt smooth) w m.
(** applyMute.c:16-230 *)
Definition applyMute (data : Z -> V) (mute : Z -> Z) (smooth above Nfoc nxs nt : Z) (ixpos : list Z) (shift : Z) (tsynW : Z -> Z) : Z -> V :=
  fold_left (fun m isyn =>
    fold_left (fun m i =>
      let imute := nth (Z.to_nat i) ixpos 0 in
      run_window (isyn * nxs * nt + i * nt) nt smooth (window above nt (mute (isyn * nxs + imute)) (tsynW (isyn * nxs + imute)) shift smooth) m)
      (range 0 (Z.of_nat (length ixpos))) m)
    (range 0 Nfoc) data.
(** applyMute_plane.c:24-141: on a copy of the trace, Nig *)
Definition applyMute_plane (data : Z -> V) (mute mutei : Z -> Z) (smooth above Nfoc nxs nt : Z) (ixpos : list Z) (shift iter : Z) : Z -> V :=
  fold_left (fun m isyn =>
    fold_left (fun m i =>
      let imute := nth (Z.to_nat i) ixpos 0 in
      let base := isyn * nxs * nt + i * nt in
      let Nig := run_window 0 nt smooth (window_plane above iter nt (mute (isyn * nxs + imute)) (mutei (isyn * nxs + imute)) shift smooth) (fun j => m (base + j)) in
      fold_left (fun m j => upd m (base + j) (Nig j)) (range 0 nt) m)
      (range 0 (Z.of_nat (length ixpos))) m)
    (range 0 Nfoc) data.
(** applyMute_tshift.c:24-108 *)
Definition applyMute_tshift (data : Z -> V) (mute : Z -> Z) (smooth above Nfoc nxs nt : Z) (ixpos : list Z) (shift iter : Z) (tsynW : Z -> Z) : Z -> V :=
  fold_left (fun m isyn =>
    fold_left (fun m i =>
      let imute := nth (Z.to_nat i) ixpos 0 in
      let base := isyn * nxs * nt + i * nt in
      let Nig := run_window 0 nt smooth (window_tshift above iter nt (mute (isyn * nxs + imute)) (tsynW (isyn * nxs + imute)) shift smooth) (fun j => m (base + j)) in
      fold_left (fun m j => upd m (base + j) (Nig j)) (range 0 nt) m)
      (range 0 (Z.of_nat (length ixpos))) m)
    (range 0 Nfoc) data.

(** ** integration *)
Notation C := (V * V)%type.
Definition cadd (a b : C) : C := (vadd (fst a) (fst b), vadd (snd a) (snd b)).
Definition vsub (a b : V) : V := vadd a (vopp b).
(** the product of synthesis.c:165-168 *)
Definition cmul (a b : C) : C := (vsub (vmul (fst a) (fst b)) (vmul (snd a) (snd b)), vadd (vmul (snd a) (fst b)) (vmul (fst a) (snd b))).

Record acquisition := mk_acquisition {
  nxs : Z; nts : Z; nw : Z; nw_low : Z; nx : Z; Nfoc : Z;
  fxsb : Q; fxse : Q; dxs : Q;
  xsrc : list Q; xrcv : Z -> Q; xnx : Z -> Z;
  dx : V; dxsrc : V; scl : V;
  Refl : Z -> C;
  isxcount : Z -> Z; reci_xrcv : Z -> Z; reci_xsrc : Z -> Z; ixmask : Z -> V }.
(** rc1fft(trace,ctrace,ntfft,-1) and cr1fft(sum,rtrace,ntfft,1), any functions *)
Variables (rc : (Z -> V) -> Z -> C) (cr : (Z -> C) -> Z -> V).
Variable A : acquisition.

(** synthesis.c:96-124: the operator in the frequency domain, from all nxs traces in the first
    call and from the npos traces at the positions ixpos in later calls; mode is 1 or -1 *)
Definition conj_mode (mode : bool) (c : C) : C := if mode then c else (fst c, vopp (snd c)).
Definition set_trace (Fop : Z -> C) (Top : Z -> V) (mode : bool) (l i ix : Z) : Z -> C :=
  let ctrace := rc (fun j => Top (l * (nxs A * nts A) + i * nts A + j)) in
  fold_left (fun m iw => upd m (l * nxs A * nw A + iw * nxs A + ix) (conj_mode mode (ctrace (nw_low A + iw)))) (range 0 (nw A)) Fop.
Definition set_operator (first : bool) (Fop : Z -> C) (Top : Z -> V) (mode : bool) (ixpos : list Z) : Z -> C :=
  fold_left (fun m l =>
    let m := fold_left (fun m a => upd m (l * nxs A * nw A + a) (v0, v0)) (range 0 (nxs A * nw A)) m in
    if first then fold_left (fun m i => set_trace m Top mode l i i) (range 0 (nxs A)) m
    else fold_left (fun m i => set_trace m Top mode l i (nth (Z.to_nat i) ixpos 0)) (range 0 (Z.of_nat (length ixpos))) m)
    (range 0 (Nfoc A)) Fop.
(** synthesis.c:125-131; the product with 1/dxs as the quotient *)
Definition ixrcv (k i : Z) : Z := position (fxsb A) (dxs A) (xrcv A (k * nx A + i)).
(** synthesis.c:161-170: the integral over the receivers of shot k, as a spectrum *)
Definition shot_sum (Fop : Z -> C) (k l : Z) : Z -> C := fun j =>
  let m := j - nw_low A in
  if (0 <=? m) && (m <? nw A) then
    fold_left (fun s i => cadd s (cmul (Refl A (k * nw A * nx A + m * nx A + i)) (Fop (l * nw A * nxs A + m * nxs A + ixrcv k i)))) (range 0 (xnx A k)) (v0, v0)
  else (v0, v0).
(** synthesis.c:215-226 *)
Definition reci_sum (Fop : Z -> C) (k l : Z) : Z -> C := fun j =>
  let m := j - nw_low A in
  if (0 <=? m) && (m <? nw A) then
    fold_left (fun s i =>
      let il := reci_xrcv A (k * nxs A + i) in let ik := reci_xsrc A (k * nxs A + i) in
      let ix := position (fxsb A) (dxs A) (nth (Z.to_nat il) (xsrc A) 0%Q) in
      cadd s (cmul (Refl A (il * nw A * nx A + m * nx A + ik)) (Fop (l * nw A * nxs A + m * nxs A + ix)))) (range 0 (isxcount A k)) (v0, v0)
  else (v0, v0).
(** one store: the address and the new value from the old one *)
Definition instr := (Z * (V -> V))%type.
Definition source_index (k : Z) : Z := position (fxsb A) (dxs A) (nth (Z.to_nat k) (xsrc A) 0%Q).
(** an iteration of the loop over shots: synthesis.c:153-184 *)
Definition shot_work (Fop : Z -> C) (k : Z) : list instr :=
  if in_aperture (fxsb A) (fxse A) (nth (Z.to_nat k) (xsrc A) 0%Q) then
    flat_map (fun l => let rtrace := cr (shot_sum Fop k l) in
      map (fun j => (l * (nxs A * nts A) + source_index k * nts A + j, fun x => vadd x (vmul (vmul (rtrace j) (scl A)) (dx A)))) (range 0 (nts A)))
      (range 0 (Nfoc A))
  else [].
(** an iteration of the loop over reciprocal shots: synthesis.c:207-237 *)
Definition reci_work (Fop : Z -> C) (k : Z) : list instr :=
  if isxcount A k =? 0 then []
  else flat_map (fun l => let rtrace := cr (reci_sum Fop k l) in
      map (fun j => (l * (nxs A * nts A) + k * nts A + j, fun x => vmul (ixmask A k) (vadd x (vmul (vmul (rtrace j) (scl A)) (dxsrc A))))) (range 0 (nts A)))
      (range 0 (Nfoc A)).

(** threads: the remaining instructions of each, with the value loaded for the first one.  A step
    of a thread is a load or a store. *)
Record thread := mk_thread { loaded : option V; todo : list instr }.
Definition step_thread (m : Z -> V) (t : thread) : (Z -> V) * thread :=
  match todo t with
  | [] => (m, t)
  | (a, f) :: r => match loaded t with
                   | None => (m, mk_thread (Some (m a)) (todo t))
                   | Some x => (upd m a (f x), mk_thread None r)
                   end
  end.
Definition step_team (s : (Z -> V) * list thread) (p : nat) : (Z -> V) * list thread :=
  match nth_error (snd s) p with
  | None => s
  | Some t => let '(m, t') := step_thread (fst s) t in (m, firstn p (snd s) ++ t' :: skipn (S p) (snd s))
  end.
Definition run_team (s : (Z -> V) * list thread) (sched : list nat) : (Z -> V) * list thread := fold_left step_team sched s.
(** one after the other *)
Definition run_serial (m : Z -> V) (p : list instr) : Z -> V := fold_left (fun m '(a, f) => upd m a (f (m a))) p m.
(** synthesis, synthesis.c:52-251, serially: the operator and the result *)
Definition synthesis (first : bool) (Fop : Z -> C) (Top : Z -> V) (mode : bool) (reci : Z) (ixpos : list Z) : (Z -> C) * (Z -> V) :=
  let Fop := set_operator first Fop Top mode ixpos in
  let RNi := fun _ => v0 in
  let RNi := if (reci =? 0) || (reci =? 1) then run_serial RNi (flat_map (shot_work Fop) (range 0 (Z.of_nat (length (xsrc A))))) else RNi in
  let RNi := if reci =? 0 then RNi else run_serial RNi (flat_map (reci_work Fop) (range 0 (nxs A))) in
  (Fop, RNi).

(** ** the iteration, marchenko.c:452-555; the arrays of the npos traces *)
Record fields := mk_fields { Ni : Z -> V; pmin : Z -> V; f1plus : Z -> V; f1min : Z -> V; f2p : Z -> V; op : Z -> C; called : bool }.
(** for (l..) for (i..npos) for (j..nts) a[l*nxs*nts+i*nts+j] = val *)
Definition set_all (npos : Z) (m : Z -> V) (val : Z -> Z -> Z -> V -> V) : Z -> V :=
  fold_left (fun m l => fold_left (fun m i => fold_left (fun m j =>
    let a := l * nxs A * nts A + i * nts A + j in upd m a (val l i j (m a))) (range 0 (nts A)) m) (range 0 npos) m) (range 0 (Nfoc A)) m.
(** sample nts-j, and 0 for j=0 *)
Definition back (j : Z) : Z := if j =? 0 then 0 else nts A - j.
Section Run.
Variables (mute tsynW : Z -> Z) (smooth shift above reci : Z) (ixpos : list Z).
Definition npos := Z.of_nat (length ixpos).
Definition at_ (f : Z -> V) (l i j : Z) : V := f (l * nxs A * nts A + i * nts A + j).
Definition pos (i : Z) : Z := nth (Z.to_nat i) ixpos 0.
Definition win (ab : Z) (f : Z -> V) : Z -> V := applyMute f mute smooth ab (Nfoc A) (nxs A) (nts A) ixpos shift tsynW.
(** marchenko.c:452-464 *)
Definition init_fields (G_d : Z -> V) : fields :=
  {| Ni := G_d; pmin := fun _ => v0; f1plus := set_all npos (fun _ => v0) (fun l i j _ => at_ G_d l (pos i) j); f1min := fun _ => v0;
     f2p := set_all npos (fun _ => v0) (fun l i j _ => at_ G_d l (pos i) j); op := fun _ => (v0, v0); called := false |}.
(** marchenko.c:468-548, without plane waves *)
Definition iteration (s : fields) (iter : Z) : fields :=
  let '(Fop, iRN) := synthesis (negb (called s)) (op s) (Ni s) true reci ixpos in
  let N := set_all npos (Ni s) (fun l i j _ => vopp (at_ iRN l (pos i) (back j))) in
  let p := set_all npos (pmin s) (fun l i j x => vadd x (at_ iRN l (pos i) j)) in
  let N := win (- above) N in
  let f1m := if Z.rem iter 2 =? 0 then
               let f := set_all npos (f1min s) (fun l i j x => vsub x (at_ N l i (back j))) in
               if above =? -2 then win 0 f else f
             else f1min s in
  let f1p := if Z.rem iter 2 =? 0 then f1plus s else set_all npos (f1plus s) (fun l i j x => vadd x (at_ N l i j)) in
  {| Ni := N; pmin := p; f1plus := f1p; f1min := f1m; f2p := set_all npos (f2p s) (fun l i j x => vadd x (at_ N l i j)); op := Fop; called := true |}.
Definition marchenko (G_d : Z -> V) (niter : Z) : fields := fold_left iteration (range 0 niter) (init_fields G_d).
(** marchenko.c:558-573 *)
Definition green (s : fields) : Z -> V :=
  win 4 (set_all npos (fun _ => v0) (fun l i j _ =>
    if nts A / 2 <=? mute (l * nxs A + pos i) then v0 else vadd (at_ (f2p s) l i (back j)) (at_ (pmin s) l i j))).
(** marchenko.c:576-606 *)
Definition Gmin (niter : Z) (G_d : Z -> V) (s : fields) : Z -> V :=
  let f1p := if niter =? 0 then G_d else f1plus s in
  let '(_, iRN) := synthesis (negb (called s)) (op s) f1p true reci ixpos in
  win 4 (set_all npos (fun _ => v0) (fun l i j _ => vsub (at_ iRN l (pos i) j) (at_ (f1min s) l i j))).
(** marchenko.c:609-636; gmin tells whether file_gmin is given, then f1plus has been overwritten if
    niter is 0 (line 580) and synthesis has been called *)
Definition Gplus (gmin : bool) (niter : Z) (G_d : Z -> V) (s : fields) : Z -> V :=
  let f1p := if gmin && (niter =? 0) then G_d else f1plus s in
  let '(_, iRN) := synthesis (negb (called s || gmin)) (op s) (f1min s) false reci ixpos in
  win 4 (set_all npos (fun _ => v0) (fun l i j _ => vadd (vopp (at_ iRN l (pos i) j)) (at_ f1p l i (back j)))).
End Run.
(** rotation of the time axis for output, marchenko.c:708-718; trace is a copy *)
Definition rotate (n1 : Z) (tr : Z -> V) : Z -> V :=
  let m := fold_left (fun m j => upd m (n1 / 2 + j) (tr j)) (range 0 (n1 / 2)) tr in
  fold_left (fun m j => upd m (j - n1 / 2) (tr j)) (range (n1 / 2) n1) m.
End Values.
