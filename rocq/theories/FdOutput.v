(** Recording in fdelmodc: the sample bookkeeping of the time loop (fdelmodc.c:655-690, 725-770),
    the values read at the receivers (getRecTimes.c), snapshots (writeSnapTimes.c), beams
    (getBeamTimes.c), the division of shots over processes (fdelmodc.c:513-515) and the output
    file names (name_ext.c, fileOpen.c).

    Not modelled: trace headers, the q component, up/down decomposition (rec.type.ud),
    rec.scale, MPI file access. *)
From Coq Require Import ZArith List Bool QArith Ascii String.
From Verif Require Import FdMachine FdKernels.
Import ListNotations.
Local Open Scope Z_scope.

(** ** sample bookkeeping *)
(** rec.n, rec.nt, rec.skipdt, rec.delay, and mod.nt, NINT(mod.t0/mod.dt) *)
Record recording := mk_recording { rec_n : Z; rec_nt : Z; skipdt : Z; delay : Z; mod_nt : Z; t0n : Z }.
(** fdelmodc.c:564,569: it1=mod.nt+NINT(-mod.t0/mod.dt); NINT is odd *)
Definition it1 (r : recording) : Z := mod_nt r - t0n r.
(** fdelmodc.c:658 *)
Definition is_recorded (r : recording) (it : Z) : bool := (Z.rem (it - delay r) (skipdt r) =? 0) && (delay r <=? it).
(** fdelmodc.c:661-666 *)
Definition writeToFile (r : recording) (it : Z) : bool :=
  let count := Z.quot (it - delay r + t0n r) (skipdt r) + 1 in
  if count =? 0 then false else Z.rem count (rec_nt r) =? 0.
(** fdelmodc.c:667-671 *)
Definition sample_number (r : recording) (fileno it : Z) : Z :=
  let itwritten := fileno * rec_nt r * skipdt r in
  let isam := Z.quot (it - delay r - itwritten + t0n r) (skipdt r) + 1 in
  if isam <? 0 then rec_nt r + isam else isam.

(** getParameters.c:1162,1170 without rec_ntsam, for tmod = nt*dt, rec_delay = delay*dt and
    dtrcv = skipdt*dt, exact arithmetic: (tmod-rdelay+0.01*dt)/dtrcv = a/b *)
Definition default_rec_nt (nt delay skipdt : Z) : Z :=
  let a := 100 * (nt - delay) + 1 in let b := 100 * skipdt in
  Z.min ((2 * a + b) / (2 * b) + 1) (- ((- a) / b)).

Section Recorder.
Context {V : Type} (zero : V) (add : V -> V -> V).
(** one component: += for all but dxvx and dzvz, which are assigned (getRecTimes.c:232-239) *)
Context (accumulate : bool).

(** a written trace file: number and traces *)
Record outfile := mk_outfile { file_number : Z; traces : list (list V) }.
(** the receiver array rec_*[irec*rec.nt+isam] of rec.n*rec.nt values, whether an access went
    outside it, fileno, isam (without a value before the first sample) and what was written *)
Record recorder := mk_recorder { samples : Z -> V; outside : bool; fileno : Z; isam : option Z; written : list outfile }.

Definition store (f : Z -> V) (i : Z) (v : V) : Z -> V := fun j => if j =? i then v else f j.
(** getRecTimes.c, loop over irec, for the field values [v irec] *)
Definition store_samples (r : recording) (s : recorder) (sample : Z) (v : Z -> V) : recorder :=
  fold_left (fun s irec =>
    let i := irec * rec_nt r + sample in
    if (0 <=? i) && (i <? rec_n r * rec_nt r)
    then mk_recorder (store (samples s) i (if accumulate then add (samples s i) (v irec) else v irec)) (outside s) (fileno s) (isam s) (written s)
    else mk_recorder (samples s) true (fileno s) (isam s) (written s))
  (range 0 (rec_n r)) s.
(** writeRec.c:198-245: rec.n traces of nsam samples, starting at irec*rec.nt *)
Definition write_traces (r : recording) (s : recorder) (fno : Z) : recorder :=
  match isam s with
  | None => mk_recorder (samples s) true (fileno s) (isam s) (written s)
  | Some i =>
      let nsam := i + 1 in
      mk_recorder (samples s) (outside s || (rec_n r * rec_nt r <? (rec_n r - 1) * rec_nt r + nsam)) (fileno s) (isam s)
        (written s ++ [mk_outfile fno (map (fun irec => map (fun j => samples s (irec * rec_nt r + j)) (range 0 nsam)) (range 0 (rec_n r)))])
  end.
(** fdelmodc.c:658-684, after time step [it]; [v irec] is the value read at receiver irec *)
Definition record_step (r : recording) (s : recorder) (it : Z) (v : Z -> V) : recorder :=
  if is_recorded r it then
    let i := sample_number r (fileno s) it in
    let s := store_samples r (mk_recorder (samples s) (outside s) (fileno s) (Some i) (written s)) i v in
    if writeToFile r it && (it + skipdt r <=? it1 r - 1) then
      let fno := Z.quot (Z.quot (it - delay r) (skipdt r) + 1) (rec_nt r) in
      write_traces r (mk_recorder (samples s) (outside s) fno (isam s) (written s)) fno
    else s
  else s.
(** the time loop of one shot, fdelmodc.c:575-724, and the writing after it, 727, 744;
    [wave it irec] is the value at the receiver after time step [it] *)
Definition shot (r : recording) (init : Z -> V) (wave : Z -> Z -> V) : recorder :=
  let s := fold_left (fun s it => record_step r s it (wave it)) (range 0 (it1 r)) (mk_recorder init false 0 None []) in
  let fno := if fileno s =? 0 then 0 else fileno s + 1 in
  write_traces r (mk_recorder (samples s) (outside s) fno (isam s) (written s)) fno.
(** the loop over shots, fdelmodc.c:522-771: the receiver arrays are cleared after each shot,
    except rec_dxvx and rec_dzvz (753-767).  The shots' outputs, in order; all shots append to
    the same file (writeRec.c:71-72, fileOpen.c:76-89) *)
Fixpoint shots (r : recording) (init : Z -> V) (waves : list (Z -> Z -> V)) : list recorder :=
  match waves with
  | [] => []
  | w :: ws => let s := shot r init w in s :: shots r (if accumulate then fun _ => zero else samples s) ws
  end.
End Recorder.
Arguments mk_recorder {V}. Arguments samples {V}. Arguments outside {V}. Arguments fileno {V}. Arguments isam {V}. Arguments written {V}.
Arguments mk_outfile {V}. Arguments file_number {V}. Arguments traces {V}.

(** ** values read at a receiver *)
Inductive component := Rp | Rtxx | Rtzz | Rtxz | Rpp | Rss | Rvz | Rvx | Rdxvx | Rdzvz.
Section Read.
(** acoustic: mod.ischeme == 1; for the Vz interpolation the code tests ischeme <= 2 *)
Context (acoustic : bool) (int_p int_vx int_vz : Z) (dx dz : Q).
Definition half : expr := lit 1 2.
Definition quarter : expr := lit 1 4.
(** c1, c2 of getRecTimes.c:38-39; written as c1*(a-b)+c2*(c-d) *)
Definition rec_dvx (ix iz : Z) (ixr : Z) : expr :=
  Add (Mul (lit 9 8) (Sub (Rd VX (ix + 1) iz) (Rd VX ix iz))) (Mul (lit (-1) 24) (Sub (Rd VX (ixr + 2) iz) (Rd VX (ix - 1) iz))).
Definition rec_dvz (ix iz : Z) : expr :=
  Add (Mul (lit 9 8) (Sub (Rd VZ ix (iz + 1)) (Rd VZ ix iz))) (Mul (lit (-1) 24) (Sub (Rd VZ ix (iz + 2)) (Rd VZ ix (iz - 1)))).
(** pressure half a time step back: getRecTimes.c:176, 189 *)
Definition p_back (ix iz ixr : Z) : expr :=
  if acoustic then Add (Rd TZZ ix iz) (Mul (Mul half (Rd L2M ix iz)) (Add (rec_dvx ix iz ixr) (rec_dvz ix iz)))
  else Add (Rd TZZ ix iz) (Mul half (Add (Mul (Rd L2M ix iz) (rec_dvz ix iz)) (Mul (Rd LAM ix iz) (rec_dvx ix iz ixr)))).
(** velocities half a time step forward: getRecTimes.c:271-277, 280-290 *)
Definition vz_forward (ix iz : Z) : expr :=
  let near := if acoustic then Sub (Rd TZZ ix iz) (Rd TZZ ix (iz - 1))
              else Sub (Add (Sub (Rd TZZ ix iz) (Rd TZZ ix (iz - 1))) (Rd TXZ (ix + 1) iz)) (Rd TXZ ix iz) in
  let far := if acoustic then Sub (Rd TZZ ix (iz + 1)) (Rd TZZ ix (iz - 2))
             else Sub (Add (Sub (Rd TZZ ix (iz + 1)) (Rd TZZ ix (iz - 2))) (Rd TXZ (ix + 2) iz)) (Rd TXZ (ix - 1) iz) in
  Sub (Rd VZ ix iz) (Mul (Mul half (Rd ROZ ix iz)) (Add (Mul (lit 9 8) near) (Mul (lit (-1) 24) far))).
(** getRecTimes.c:307-313, 316-326 *)
Definition vx_forward (ix iz : Z) : expr :=
  let t := if acoustic then TZZ else TXX in
  let near := if acoustic then Sub (Rd t ix iz) (Rd t (ix - 1) iz)
              else Sub (Add (Sub (Rd t ix iz) (Rd t (ix - 1) iz)) (Rd TXZ ix (iz + 1))) (Rd TXZ ix iz) in
  let far := if acoustic then Sub (Rd t (ix + 1) iz) (Rd t (ix - 2) iz)
             else Sub (Add (Sub (Rd t (ix + 1) iz) (Rd t (ix - 2) iz)) (Rd TXZ ix (iz + 2))) (Rd TXZ ix (iz - 1)) in
  Sub (Rd VX ix iz) (Mul (Mul half (Rd ROX ix iz)) (Add (Mul (lit 9 8) near) (Mul (lit (-1) 24) far))).
Definition mean4 (a b c d : expr) : expr := Mul quarter (Add (Add (Add a b) c) d).

(** values at the grid point (ix,iz), getRecTimes.c:164-340, int_p <> 3 *)
Definition at_gridpoint (c : component) (ix iz : Z) : expr :=
  let ix1 := ix - 1 in let iz1 := iz - 1 in let ix2 := ix + 1 in let iz2 := iz + 1 in
  match c with
  | Rp => if int_p =? 1 then Mul half (Add (p_back ix iz ix) (p_back ix iz1 ix))
          else if int_p =? 2 then Mul half (Add (p_back ix iz ix) (p_back ix1 iz ix)) (* vx[(ix+2)*n1+iz] in both *)
          else Rd TZZ ix iz
  | Rtxx => Rd TXX ix iz
  | Rtzz => Rd TZZ ix iz
  | Rdxvx => Div (rec_dvx ix iz ix) (Lit dx)
  | Rdzvz => Div (rec_dvz ix iz) (Lit dz)
  | Rtxz => if (int_vz =? 2) || (int_vx =? 2) then mean4 (Rd TXZ ix iz2) (Rd TXZ ix2 iz2) (Rd TXZ ix iz) (Rd TXZ ix2 iz)
            else Rd TXZ ix2 iz2
  | Rpp => Div (Sub (Add (Sub (Rd VX ix2 iz) (Rd VX ix iz)) (Rd VZ ix iz2)) (Rd VZ ix iz)) (Lit dx)
  | Rss => Div (Sub (Sub (Rd VX ix2 iz2) (Rd VX ix2 iz)) (Sub (Rd VZ ix2 iz2) (Rd VZ ix iz2))) (Lit dx)
  | Rvz => if int_vz =? 1 then mean4 (Rd VZ ix iz2) (Rd VZ ix1 iz2) (Rd VZ ix iz) (Rd VZ ix1 iz)
           else if int_vz =? 2 then Mul half (Add (vz_forward ix iz) (vz_forward ix iz2))
           else Rd VZ ix iz2
  | Rvx => if int_vx =? 1 then mean4 (Rd VX ix2 iz) (Rd VX ix2 iz1) (Rd VX ix iz) (Rd VX ix iz1)
           else if int_vx =? 2 then
             (if acoustic then Mul half (Add (vx_forward ix iz) (vx_forward ix2 iz))
              else Mul half (vx_forward ix2 iz)) (* line 321: field = instead of field += *)
           else Rd VX ix2 iz
  end.
(** interpolation to a position between grid points, getRecTimes.c:63-162, int_p = 3: the four
    corners of the cell with upper left corner (ix,iz); rdx, rdz the position in the cell.
    dxvx and dzvz are not recorded then. *)
Definition corner (c : component) (ix iz : Z) : expr :=
  let ix2 := ix + 1 in let iz2 := iz + 1 in
  match c with
  | Rp | Rtzz => Rd TZZ ix iz
  | Rtxx => Rd TXX ix iz
  | Rtxz => Rd TXZ ix2 iz2
  | Rpp => Div (Sub (Add (Sub (Rd VX ix2 iz) (Rd VX ix iz)) (Rd VZ ix iz2)) (Rd VZ ix iz)) (Lit dx)
  | Rss => Div (Sub (Sub (Rd VX ix2 iz2) (Rd VX ix2 iz)) (Sub (Rd VZ ix2 iz2) (Rd VZ ix iz2))) (Lit dx)
  | Rvz => Rd VZ ix iz2
  | Rvx => Rd VX ix2 iz
  | Rdxvx | Rdzvz => lit 0 1
  end.
Definition bilinear (c : component) (ix iz : Z) (rdx rdz : Q) : expr :=
  Add (Add (Add (Mul (Mul (corner c ix iz) (Lit (1 - rdx))) (Lit (1 - rdz)))
                (Mul (Mul (corner c (ix + 1) iz) (Lit rdx)) (Lit (1 - rdz))))
           (Mul (Mul (corner c ix (iz + 1)) (Lit (1 - rdx))) (Lit rdz)))
      (Mul (Mul (corner c (ix + 1) (iz + 1)) (Lit rdx)) (Lit rdz)).
End Read.
(** where the receiver with model coordinates (x,z) is read: getRecTimes.c:30-33, 56-57 *)
Definition rec_cell (g : grid) (b : bnd) (p : Z * Z) : Z * Z :=
  (fst p + (ioPx g + if tapered (lef b) then npml b else 0), snd p + (ioPz g + if tapered (top b) then npml b else 0)).

(** ** snapshots *)
Record snapshot := mk_snapshot { sx1 : Z; sx2 : Z; sz1 : Z; sz2 : Z; sskipdx : Z; sskipdz : Z; sskipdt : Z; sdelay : Z; nsnap : Z; snx : Z; snz : Z }.
(** getParameters.c:1060-1082, in samples: nrsna = 1+NINT((tsnap2-tsnap1)/dtsnap); the window
    x1..x2, z1..z2 in grid points *)
Definition snapPar (mod_nt nrsna skipdt delay x1 x2 z1 z2 skipdx skipdz : Z) : snapshot :=
  let isnapmax1 := (nrsna - 1) * skipdt in
  let isnapmax2 := Z.quot (mod_nt - (delay + 1)) skipdt * skipdt in
  let isnapmax := (delay + 1) + Z.min isnapmax1 isnapmax2 in
  {| sx1 := x1; sx2 := x2; sz1 := z1; sz2 := z2; sskipdx := skipdx; sskipdz := skipdz; sskipdt := skipdt; sdelay := delay;
     nsnap := Z.quot (isnapmax - (delay + 1)) skipdt + 1;
     snx := 1 + Z.quot (x2 - x1) skipdx; snz := 1 + Z.quot (z2 - z1) skipdz |}.
(** writeSnapTimes.c:68-70 *)
Definition snap_now (s : snapshot) (it : Z) : bool :=
  (Z.rem (it - sdelay s) (sskipdt s) =? 0) && (sdelay s <=? it) && (it <=? sdelay s + (nsnap s - 1) * sskipdt s).
(** for (i=a; i<=b; i+=step) *)
Definition stepped (a b step : Z) : list Z := map (fun k => a + Z.of_nat k * step) (seq 0 (Z.to_nat ((b - a) / step + 1))).
(** the value of a component of the snapshot at loop indices (ix,iz): writeSnapTimes.c:150-219 *)
Definition snap_expr (sdx : Q) (c : component) (ix ix2 iz : Z) : expr :=
  match c with
  | Rvx => Rd VX ix2 iz
  | Rvz => Rd VZ ix (iz + 1)
  | Rp | Rtzz => Rd TZZ ix iz
  | Rtxx => Rd TXX ix iz
  | Rtxz => Rd TXZ ix2 (iz + 1)
  | Rpp => Mul (Lit sdx) (Add (Sub (Rd VX (ix + 1) iz) (Rd VX ix iz)) (Sub (Rd VZ ix (iz + 1)) (Rd VZ ix iz)))
  | Rss => Mul (Lit sdx) (Sub (Sub (Rd VX ix iz) (Rd VX ix (iz - 1))) (Sub (Rd VZ ix iz) (Rd VZ (ix - 1) iz)))
  | Rdxvx => Mul (Lit sdx) (rec_dvx ix iz ix)
  | Rdzvz => Mul (Lit sdx) (rec_dvz ix iz)
  end.
(** the traces of a component, writeSnapTimes.c:130-138, 150-219, without boundaries (withbnd = 0) *)
Definition snap_exprs (g : grid) (sdx : Q) (c : component) (s : snapshot) : list (list expr) :=
  map (fun ixs => map (snap_expr sdx c (ixs + ioXx g) (ixs + ioXx g + 1)) (stepped (sz1 s + ioXz g) (sz2 s + ioXz g) (sskipdz s)))
      (stepped (sx1 s) (sx2 s) (sskipdx s)).
Definition snap_traces {V} (O : ops V) (m : mem) (g : grid) (sdx : Q) (c : component) (s : snapshot) : list (list V) :=
  map (map (eval O m)) (snap_exprs g sdx c s).
(** with boundaries, writeSnapTimes.c:55-65, 140-149 and the assignments to izs in 157-188: the
    first row depends on which other components are written, [vz] and [txz] *)
Definition first_row (vz txz : bool) (c : component) : Z :=
  match c with
  | Rvx => if vz || txz then -1 else 0
  | Rvz | Rtxz => -1
  | Rp | Rtzz | Rtxx => if vz then 0 else if txz then -1 else 0
  | _ => 0
  end.
(** the trace has sna.nz = naz samples, the first naz of what the loop put in snap *)
Definition snap_exprs_bnd (g : grid) (sdx : Q) (vz txz : bool) (c : component) : list (list expr) :=
  map (fun ix => firstn (Z.to_nat (naz g)) (map (snap_expr sdx c ix ix) (range (first_row vz txz c) (naz g)))) (range 0 (nax g)).

(** ** beams: getBeamTimes.c:41-66, the cell added to beam_p[i*sna.nz+j] *)
Definition beam_cells (g : grid) (s : snapshot) : list (list (Z * Z)) :=
  map (fun ixs => map (fun iz => (ixs + ioPx g, iz)) (stepped (sz1 s + ioPx g) (sz2 s + ioPz g) (sskipdz s)))
      (stepped (sx1 s) (sx2 s) (sskipdx s)).

(** ** shots of a process, fdelmodc.c:513-515: single precision operations with rounding [rnd] *)
Definition Qceil (q : Q) : Z := - ((- Qnum q) / Z.pos (Qden q)).
Definition npeshot (rnd : Q -> Q) (n npes : Z) : Q :=
  let q := rnd (inject_Z n / inject_Z npes)%Q in if Qle_bool q 1 then 1%Q else q.
Definition first_shot (rnd : Q -> Q) (n npes pe : Z) : Z := Qceil (rnd (inject_Z pe * npeshot rnd n npes)%Q).
Definition end_shot (rnd : Q -> Q) (n npes pe : Z) : Z := Z.min (Qceil (rnd (inject_Z (pe + 1) * npeshot rnd n npes)%Q)) n.

(** ** file names: name_ext.c; strings are lists of characters without the terminating zero *)
Fixpoint starts_with (p s : list ascii) : bool :=
  match p, s with
  | [], _ => true
  | a :: p, c :: s => Ascii.eqb a c && starts_with p s
  | _ :: _, [] => false
  end.
(** strstr: what precedes the first occurrence *)
Fixpoint before (p s : list ascii) : option (list ascii) :=
  if starts_with p s then Some [] else match s with [] => None | c :: s => option_map (cons c) (before p s) end.
(** strrchr: what precedes the last occurrence of a character *)
Fixpoint before_last (a : ascii) (s : list ascii) : option (list ascii) :=
  match s with
  | [] => None
  | c :: s => match before_last a s with Some r => Some (c :: r) | None => if Ascii.eqb c a then Some [] else None end
  end.
Definition txt := list_ascii_of_string.
(** name_ext.c:14-44; None: char ext[100] overflows (extension and ".su" and the zero) *)
Definition name_ext (filename extension : list ascii) : option (list ascii) :=
  let insert pre dot := if Z.of_nat (List.length (extension ++ dot)) <? 100 then Some (pre ++ extension ++ dot) else None in
  match before (txt ".su") filename with
  | Some pre => insert pre (txt ".su")
  | None =>
  match before (txt ".segy") filename with
  | Some pre => insert pre (txt ".segy")
  | None =>
  match before (txt ".mat") filename with
  | Some pre => insert pre (txt ".mat")
  | None =>
  match before (txt ".hdf") filename with
  | Some pre => insert pre (txt ".hdf")
  | None =>
  match before_last "."%char filename with
  | Some pre => insert pre (txt ".su")
  | None => insert filename (txt ".su")
  end end end end end.
