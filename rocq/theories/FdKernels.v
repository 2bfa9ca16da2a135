(** The grid and the finite-difference kernels of fdelmodc (fdelmodc/getParameters.c,
    acoustic2.c, acoustic4.c, acoustic6.c, acoustic16.c, acousticSH4.c, elastic4.c, elastic6.c,
    elastic4dc.c, boundaries.c, applySource.c).

    Not modelled: PML boundaries (type 2), the moving surface (type 5), the elastic free
    surface, visco schemes, sources stored on the surface (sourceOnSurface.c). *)
From Coq Require Import ZArith List Bool QArith.
From Verif Require Import FdMachine.
Import ListNotations.
Local Open Scope Z_scope.

(** boundary conditions: 1 free, 3 rigid, 4 tapered *)
Record bnd := mk_bnd { top : Z; bot : Z; lef : Z; rig : Z; npml : Z }.
Definition tapered (side : Z) : bool := side =? 4.

Record grid := mk_grid {
  nx : Z; nz : Z; iorder : Z;
  nax : Z; naz : Z;
  ioXx : Z; ioXz : Z; ieXx : Z; ieXz : Z;
  ioZx : Z; ioZz : Z; ieZx : Z; ieZz : Z;
  ioPx : Z; ioPz : Z; iePx : Z; iePz : Z;
  ioTx : Z; ioTz : Z; ieTx : Z; ieTz : Z }.

(** getParameters.c:422-505, without the cases top = 2 and top = 5 *)
Definition getgrid (nx nz iorder : Z) (b : bnd) : grid :=
  let h := iorder / 2 in
  let t := if tapered (top b) then npml b else 0 in
  let u := if tapered (bot b) then npml b else 0 in
  let l := if tapered (lef b) then npml b else 0 in
  let r := if tapered (rig b) then npml b else 0 in
  {| nx := nx; nz := nz; iorder := iorder;
     naz := nz + iorder + t + u; nax := nx + iorder + l + r;
     ioXx := h + l; ioXz := h - 1 + t; ieXx := nx + h + l; ieXz := nz + (h - 1) + t;
     ioZx := h - 1 + l; ioZz := h + t; ieZx := nx + (h - 1) + l; ieZz := nz + h + t;
     ioPx := h - 1; ioPz := h - 1; iePx := nx + (h - 1) + l + r; iePz := nz + (h - 1) + t + u;
     ioTx := h; ioTz := h; ieTx := nx + h + l + r; ieTz := nz + h + t + u |}.

(** for (i=a; i<b; i++) *)
Definition range (a b : Z) : list Z := map (fun k => a + Z.of_nat k) (seq 0 (Z.to_nat (b - a))).
(** for (ix=x0; ix<x1; ix++) for (iz=z0; iz<z1; iz++) *)
Definition loop (x0 x1 z0 z1 : Z) (body : Z -> Z -> list action) : list action :=
  flat_map (fun ix => flat_map (fun iz => body ix iz) (range z0 z1)) (range x0 x1).

Definition lit (n : Z) (d : positive) : expr := Lit (n # d).
(** f[ix*n1+iz] -= e *)
Definition minus_eq (f : field) (ix iz : Z) (e : expr) : action := mk_action (f, ix, iz) (Sub (Rd f ix iz) e).
Definition plus_eq (f : field) (ix iz : Z) (e : expr) : action := mk_action (f, ix, iz) (Add (Rd f ix iz) e).

(** c1*(a1-b1) + c2*(a2-b2) + ..., summed from the left as C does *)
Definition sum (l : list expr) : expr := match l with [] => lit 0 1 | e :: r => fold_left Add r e end.
(** differences across the point half a cell to the left/above (vx, vz, txz): the k-th is
    f[ix+k]-f[ix-k-1] *)
Definition back_x (f : field) (ix iz k : Z) : expr := Sub (Rd f (ix + k) iz) (Rd f (ix - k - 1) iz).
Definition back_z (f : field) (ix iz k : Z) : expr := Sub (Rd f ix (iz + k)) (Rd f ix (iz - k - 1)).
(** across the point half a cell to the right/below: f[ix+k+1]-f[ix-k] *)
Definition fwd_x (f : field) (ix iz k : Z) : expr := Sub (Rd f (ix + k + 1) iz) (Rd f (ix - k) iz).
Definition fwd_z (f : field) (ix iz k : Z) : expr := Sub (Rd f ix (iz + k + 1)) (Rd f ix (iz - k)).
Definition diff (d : Z -> expr) (cs : list expr) : list expr :=
  map (fun '(k, c) => Mul c (d (Z.of_nat k))) (combine (seq 0 (length cs)) cs).
(** two differences added before the multiplication, as in the elastic kernels:
    c*(a1 - b1 + a2 - b2), from the left *)
Definition diff2 (d e : Z -> expr) (cs : list expr) : list expr :=
  map (fun '(k, c) => Mul c (match e (Z.of_nat k) with Sub a b => Sub (Add (d (Z.of_nat k)) a) b | x => Add (d (Z.of_nat k)) x end))
      (combine (seq 0 (length cs)) cs).

(** coefficients: acoustic4.c:77-78; elastic4.c:76-77, elastic4dc.c:75-76, acousticSH4.c:71-72
    and boundaries.c:33-34; acoustic6.c:71-73 and elastic6.c:76-78; acoustic16.c:73-80 *)
Definition coef4opt : list expr := [lit 1129042 1000000; lit (-4301412) 100000000].
Definition coef4 : list expr := [lit 9 8; lit (-1) 24].
Definition coef6 : list expr := [lit 75 64; lit (-25) 384; lit 3 640].
Definition coef16 : list expr := [lit 1259312 1000000; lit (-1280347) 10000000; lit 3841945 100000000; lit (-1473229) 100000000;
  lit 5924913 1000000000; lit (-2248618) 1000000000; lit 7179226 10000000000; lit (-1400855) 10000000000].

(** ** statements of the main loops *)
(** acoustic4.c:94-96, acoustic6.c:91-94, acoustic16.c:99-107 *)
Definition vx_ac (cs : list expr) (ix iz : Z) : expr := Mul (Rd ROX ix iz) (sum (diff (back_x TZZ ix iz) cs)).
(** acoustic4.c:105-107, acoustic6.c:103-106, acoustic16.c:116-124 *)
Definition vz_ac (cs : list expr) (ix iz : Z) : expr := Mul (Rd ROZ ix iz) (sum (diff (back_z TZZ ix iz) cs)).
(** acoustic4.c:132-136, acoustic6.c:123-129, acoustic16.c:141-157 *)
Definition p_ac (cs : list expr) (ix iz : Z) : expr :=
  Mul (Rd L2M ix iz) (sum (diff (fwd_x VX ix iz) cs ++ diff (fwd_z VZ ix iz) cs)).
(** elastic4.c:85-89, elastic6.c:99-105, elastic4dc.c:84-88 *)
Definition vx_el (cs : list expr) (ix iz : Z) : expr :=
  Mul (Rd ROX ix iz) (sum (diff2 (back_x TXX ix iz) (fwd_z TXZ ix iz) cs)).
(** elastic4.c:98-102, elastic6.c:114-120, elastic4dc.c:97-101 *)
Definition vz_el (cs : list expr) (ix iz : Z) : expr :=
  Mul (Rd ROZ ix iz) (sum (diff2 (back_z TZZ ix iz) (fwd_x TXZ ix iz) cs)).
(** elastic4.c:125-130, elastic6.c:139-146, elastic4dc.c:119-124 (there both factors are l2m).
    The local variables dvx and dvz are substituted; vx and vz are not written in these loops. *)
Definition dvx (cs : list expr) (ix iz : Z) : expr := sum (diff (fwd_x VX ix iz) cs).
Definition dvz (cs : list expr) (ix iz : Z) : expr := sum (diff (fwd_z VZ ix iz) cs).
Definition txx_el (cs : list expr) (lam : field) (ix iz : Z) : expr :=
  Add (Mul (Rd L2M ix iz) (dvx cs ix iz)) (Mul (Rd lam ix iz) (dvz cs ix iz)).
Definition tzz_el (cs : list expr) (lam : field) (ix iz : Z) : expr :=
  Add (Mul (Rd L2M ix iz) (dvz cs ix iz)) (Mul (Rd lam ix iz) (dvx cs ix iz)).
(** elastic4.c:142-146, elastic6.c:155-161 *)
Definition txz_el (cs : list expr) (ix iz : Z) : expr :=
  Mul (Rd MUL ix iz) (sum (diff2 (back_z VX ix iz) (back_x VZ ix iz) cs)).

Section Kernels.
Context (g : grid) (b : bnd) (elastic : bool).
(** bnd.surface, filled in fdelmodc.c:478-490 *)
Context (surface : Z -> Z).

(** ** boundariesP, boundaries.c:10-1190 *)
(** free surface at the top, acoustic schemes: boundaries.c:48-57 *)
Definition free_top : list action :=
  flat_map (fun ix => [mk_action (VZ, ix, surface ix) (Rd VZ ix (surface ix + 1));
                       mk_action (VZ, ix, surface ix - 1) (Rd VZ ix (surface ix + 2))]) (range (ioPx g) (iePx g)).
(** rigid boundaries: boundaries.c:62-127, ibnd = iorder/2-1 *)
Definition ibnd : Z := iorder g / 2 - 1.
Definition rigid_top : list action :=
  flat_map (fun ix => mk_action (VZ, ix, ibnd) (Neg (Rd VZ ix (ibnd + 1))) ::
     map (fun ib => mk_action (VZ, ix, ibnd - ib) (Neg (Rd VZ ix (ibnd + 1 + ib)))) (range 1 (ibnd + 1))) (range 1 (nx g + 1)).
Definition rigid_rig : list action :=
  flat_map (fun iz => mk_action (VX, nx g + ibnd, iz) (Neg (Rd VX (nx g + ibnd - 1) iz)) ::
     map (fun ib => mk_action (VX, nx g + ibnd + ib, iz) (Neg (Rd VX (nx g - ib) iz))) (range 1 (ibnd + 1))) (range 1 (nz g + 1)).
Definition rigid_bot : list action :=
  flat_map (fun ix => mk_action (VZ, ix, nz g + ibnd) (Neg (Rd VZ ix (nz g + ibnd - 1))) ::
     map (fun ib => mk_action (VZ, ix, nz g + ibnd + ib) (Neg (Rd VZ ix (nz g - ib)))) (range 1 (ibnd + 1))) (range 1 (nx g + 1)).
Definition rigid_lef : list action :=
  flat_map (fun iz => mk_action (VX, ibnd, iz) (Neg (Rd VX (ibnd + 1) iz)) ::
     map (fun ib => mk_action (VX, ib - ibnd, iz) (Neg (Rd VX (ibnd + 1 + ib) iz))) (range 1 (ibnd + 1))) (range 1 (nz g + 1)).

(** tapered boundaries: the velocity update followed by the multiplication with the taper,
    boundaries.c:485-1170; the same fourth-order stencils for every iorder.  The two
    assignments of an iteration are taken together. *)
Definition vx_bnd (ix iz : Z) : expr := if elastic then vx_el coef4 ix iz else vx_ac coef4 ix iz.
Definition vz_bnd (ix iz : Z) : expr := if elastic then vz_el coef4 ix iz else vz_ac coef4 ix iz.
Definition taper_vx (tap : Z -> Z -> expr) (ix iz : Z) : list action :=
  [mk_action (VX, ix, iz) (Mul (Sub (Rd VX ix iz) (vx_bnd ix iz)) (tap ix iz))].
Definition taper_vz (tap : Z -> Z -> expr) (ix iz : Z) : list action :=
  [mk_action (VZ, ix, iz) (Mul (Sub (Rd VZ ix iz) (vz_bnd ix iz)) (tap ix iz))].
Definition when (c : bool) (l : list item) : list item := if c then l else [].
Definition omp_for (l : list action) : list item := [For l; Barrier].

Definition taper_top : list item :=
  let n := npml b in
  (let izo := ioXz g - n in let ize := ioXz g in
   omp_for (loop (ioXx g) (ieXx g) izo ize (taper_vx (fun _ iz => Rd TAPX (n + izo - 1 - iz) 0))) ++
   when (tapered (rig b)) (omp_for (let ixo := ieXx g in loop ixo (ixo + n) izo ize
      (taper_vx (fun ix iz => Rd TAPXZ (ix - ixo) (n + izo - 1 - iz))))) ++
   when (tapered (lef b)) (omp_for (let ixo := ioXx g - n in loop ixo (ioXx g) izo ize
      (taper_vx (fun ix iz => Rd TAPXZ (n + ixo - 1 - ix) (n + izo - 1 - iz)))))) ++
  (let izo := ioZz g - n in let ize := ioZz g in
   omp_for (loop (ioZx g) (ieZx g) izo ize (taper_vz (fun _ iz => Rd TAPZ (n + izo - 1 - iz) 0))) ++
   when (tapered (rig b)) (omp_for (let ixo := ieZx g in loop ixo (ixo + n) izo ize
      (taper_vz (fun ix iz => Rd TAPXZ (ix - ixo) (n + izo - 1 - iz))))) ++
   when (tapered (lef b)) (omp_for (let ixo := ioZx g - n in loop ixo (ioZx g) izo ize
      (taper_vz (fun ix iz => Rd TAPXZ (n + ixo - 1 - ix) (n + izo - 1 - iz)))))).
Definition taper_bot : list item :=
  let n := npml b in
  (let izo := ieXz g in let ize := ieXz g + n in
   omp_for (loop (ioXx g) (ieXx g) izo ize (taper_vx (fun _ iz => Rd TAPX (iz - (ize - n)) 0))) ++
   when (tapered (rig b)) (omp_for (let ixo := ieXx g in loop ixo (ixo + n) izo ize
      (taper_vx (fun ix iz => Rd TAPXZ (ix - ixo) (iz - izo))))) ++
   when (tapered (lef b)) (omp_for (let ixo := ioXx g - n in loop ixo (ioXx g) izo ize
      (taper_vx (fun ix iz => Rd TAPXZ (n + ixo - 1 - ix) (iz - izo)))))) ++
  (let izo := ieZz g in let ize := ieZz g + n in
   omp_for (loop (ioZx g) (ieZx g) izo ize (taper_vz (fun _ iz => Rd TAPZ (iz - (ize - n)) 0))) ++
   when (tapered (rig b)) (omp_for (let ixo := ieZx g in loop ixo (ixo + n) izo ize
      (taper_vz (fun ix iz => Rd TAPXZ (ix - ixo) (iz - izo))))) ++
   when (tapered (lef b)) (omp_for (let ixo := ioZx g - n in loop ixo (ioZx g) izo ize
      (taper_vz (fun ix iz => Rd TAPXZ (n + ixo - 1 - ix) (iz - izo)))))).
Definition taper_lef : list item :=
  let n := npml b in
  omp_for (let ixo := ioXx g - n in loop ixo (ioXx g) (ioXz g) (ieXz g) (taper_vx (fun ix _ => Rd TAPX (n + ixo - 1 - ix) 0))) ++
  omp_for (let ixo := ioZx g - n in loop ixo (ioZx g) (ioZz g) (ieZz g) (taper_vz (fun ix _ => Rd TAPZ (n + ixo - 1 - ix) 0))).
Definition taper_rig : list item :=
  let n := npml b in
  omp_for (let ixe := ieXx g + n in loop (ieXx g) ixe (ioXz g) (ieXz g) (taper_vx (fun ix _ => Rd TAPX (ix - (ixe - n)) 0))) ++
  omp_for (let ixe := ieZx g + n in loop (ieZx g) ixe (ioZz g) (ieZz g) (taper_vz (fun ix _ => Rd TAPZ (ix - (ixe - n)) 0))).

Definition boundariesP : list item :=
  when (negb elastic && (top b =? 1)) [For free_top] ++
  when (top b =? 3) [For rigid_top] ++ when (rig b =? 3) [For rigid_rig] ++
  when (bot b =? 3) [For rigid_bot] ++ when (lef b =? 3) [For rigid_lef] ++
  when (tapered (top b)) taper_top ++ when (tapered (bot b)) taper_bot ++
  when (tapered (lef b)) taper_lef ++ when (tapered (rig b)) taper_rig.

(** ** boundariesV, boundaries.c:1609-1638: free surfaces of the acoustic schemes.  The
    worksharing loop of reStoreSourceOnSurface behind it ends in a barrier; without a source
    on the surface it does nothing. *)
Definition boundariesV : list item :=
  when (negb elastic)
   (when (top b =? 1) [For (map (fun ix => mk_action (TZZ, ix, surface ix) (lit 0 1)) (range (ioPx g) (iePx g)))] ++
    when (rig b =? 1) [For (map (fun iz => mk_action (TZZ, iePx g - 1, iz) (lit 0 1)) (range (ioPz g) (iePz g)))] ++
    when (bot b =? 1) [For (map (fun ix => mk_action (TZZ, ix, iePz g - 1) (lit 0 1)) (range (ioPx g) (iePx g)))] ++
    when (lef b =? 1) [For (map (fun iz => mk_action (TZZ, ioPx g - 1, iz) (lit 0 1)) (range (ioPz g) (iePz g)))]) ++
  [Barrier].

(** ** applySource, applySource.c:24-379, monopole sources of type 1 (pressure), 6 (Fx) and
    7 (Fz); the k-th source is at sx[k], sz[k] relative to the model and its interpolated
    wavelet value (before the multiplication in line 143) is SRC[k].  [dxi] is 1.0/mod.dx.
    Sources beyond the horizontal bounds are skipped (118); "if (src_ampl==0.0) continue"
    (117) is left out, adding 0 does not matter.  The body runs inside "omp critical". *)
Context (src_type : Z) (sources : list (Z * Z)) (dxi : Q).
Definition src_offset : Z * Z :=
  if src_type =? 6 then (ioXx g, ioXz g)
  else if src_type =? 7 then (ioZx g, ioZz g)
  else (ioPx g + (if tapered (lef b) then npml b else 0), ioPz g + (if tapered (top b) then npml b else 0)).
Definition source_at (k : nat) (s : Z * Z) : list action :=
  let ix := fst s + fst src_offset in let iz := snd s + snd src_offset in
  if (fst s <? 0) || (nx g <? fst s) then []
  else
    let ampl := Mul (Rd SRC (Z.of_nat k) 0) (Mul (Lit dxi) (Rd L2M ix iz)) in
    if src_type =? 6 then [plus_eq VX ix iz (Div (Mul (Mul (lit 1 2) ampl) (Rd ROX ix iz)) (Rd L2M ix iz))]
    else if src_type =? 7 then [plus_eq VZ ix iz (Div (Mul ampl (Rd ROZ ix iz)) (Rd L2M ix iz))]
    else if src_type =? 1 then
      if elastic then [plus_eq TXX ix iz ampl; plus_eq TZZ ix iz ampl] else [plus_eq TZZ ix iz ampl]
    else [].
Definition applySource : list item :=
  omp_for (flat_map (fun '(k, s) => source_at k s) (combine (seq 0 (length sources)) sources)).

(** ** acoustic4.c:86-160, acoustic6.c:84-147, acoustic16.c:91-175 (in the latter two the
    force sources come in front of boundariesP, which acoustic4 calls first) *)
Definition vx_loop (e : Z -> Z -> expr) : list action :=
  loop (ioXx g) (ieXx g) (ioXz g) (ieXz g) (fun ix iz => [minus_eq VX ix iz (e ix iz)]).
Definition vz_loop (e : Z -> Z -> expr) : list action :=
  loop (ioZx g) (ieZx g) (ioZz g) (ieZz g) (fun ix iz => [minus_eq VZ ix iz (e ix iz)]).
Definition p_loop (e : Z -> Z -> expr) : list action :=
  loop (ioPx g) (iePx g) (ioPz g) (iePz g) (fun ix iz => [minus_eq TZZ ix iz (e ix iz)]).

Definition force : list item := when (5 <? src_type) applySource.
Definition stress : list item := when (src_type <? 6) applySource.

Definition acoustic4 : list item :=
  [For (vx_loop (vx_ac coef4opt)); For (vz_loop (vz_ac coef4opt)); Barrier] ++
  boundariesP ++ force ++ [For (p_loop (p_ac coef4opt)); Barrier] ++ stress ++ boundariesV.
Definition acoustic_n (cs : list expr) : list item :=
  [For (vx_loop (vx_ac cs)); For (vz_loop (vz_ac cs)); Barrier] ++
  force ++ boundariesP ++ [For (p_loop (p_ac cs)); Barrier] ++ stress ++ boundariesV.
Definition acoustic6 : list item := acoustic_n coef6.
Definition acoustic16 : list item := acoustic_n coef16.
(** acousticSH4.c:84-143 is the same code with the arrays (tx, tz, vz, mul, rox) in the roles
    of (vx, vz, p, rox and roz, l2m); the caller passes them as vx, vz, tzz, rox, roz, l2m *)
Definition vx_sh (ix iz : Z) : expr := Mul (Rd L2M ix iz) (sum (diff (back_x TZZ ix iz) coef4)).
Definition vz_sh (ix iz : Z) : expr := Mul (Rd L2M ix iz) (sum (diff (back_z TZZ ix iz) coef4)).
Definition p_sh (ix iz : Z) : expr :=
  Mul (Rd ROX ix iz) (sum (diff (fwd_x VX ix iz) coef4 ++ diff (fwd_z VZ ix iz) coef4)).
Definition acousticSH4 : list item :=
  [For (vx_loop vx_sh); For (vz_loop vz_sh); Barrier] ++
  force ++ boundariesP ++ [For (p_loop p_sh); Barrier] ++ stress ++ boundariesV.

(** ** acoustic2.c:66-136: no worksharing, although called in the parallel region at
    fdelmodc.c:586-622; the Vz loop takes its x-range from the z-range (lines 80-82) *)
Definition acoustic2 : list item :=
  [All (loop (ioXx g) (ieXx g) (ioXz g) (ieXz g) (fun ix iz => [minus_eq VX ix iz
      (Mul (Rd ROX ix iz) (Sub (Rd TZZ ix iz) (Rd TZZ (ix - 1) iz)))]));
   All (loop (ioZz g) (ieZz g) (ioZz g) (ieZz g) (fun ix iz => [minus_eq VZ ix iz
      (Mul (Rd ROZ ix iz) (Sub (Rd TZZ ix iz) (Rd TZZ ix (iz - 1))))]))] ++
  force ++ boundariesP ++
  [All (p_loop (fun ix iz => Mul (Rd L2M ix iz)
      (Add (Sub (Rd VX (ix + 1) iz) (Rd VX ix iz)) (Sub (Rd VZ ix (iz + 1)) (Rd VZ ix iz)))))] ++
  stress ++ boundariesV.

(** ** elastic4.c:78-165 without PML (then txx_ix0.. are mod.ioPx..), elastic6.c:93-182,
    elastic4dc.c:79-160 *)
Definition stress_loop (cs : list expr) (lam : field) : list action :=
  loop (ioPx g) (iePx g) (ioPz g) (iePz g)
    (fun ix iz => [minus_eq TXX ix iz (txx_el cs lam ix iz); minus_eq TZZ ix iz (tzz_el cs lam ix iz)]).
Definition elastic4 : list item :=
  [For (vx_loop (vx_el coef4)); For (vz_loop (vz_el coef4)); Barrier] ++
  force ++ boundariesP ++
  [For (stress_loop coef4 LAM);
   For (loop (ioPx g) (iePx g) (ioPz g) (iePz g) (fun ix iz => [minus_eq TXZ ix iz (txz_el coef4 ix iz)])); Barrier] ++
  stress ++ boundariesV.
Definition elastic6 : list item :=
  [For (vx_loop (vx_el coef6)); For (vz_loop (vz_el coef6)); Barrier] ++
  force ++ boundariesP ++
  [For (stress_loop coef6 LAM);
   For (loop (ioTx g) (ieTx g) (ioTz g) (ieTz g) (fun ix iz => [minus_eq TXZ ix iz (txz_el coef6 ix iz)])); Barrier] ++
  stress ++ boundariesV.
(** the only loop that ended in a barrier is commented out (elastic4dc.c:131-144) *)
Definition elastic4dc : list item :=
  [For (vx_loop (vx_el coef4)); For (vz_loop (vz_el coef4)); Barrier] ++
  force ++ boundariesP ++
  [For (stress_loop coef4 L2M)] ++
  stress ++ boundariesV.
End Kernels.

(** the switch over ischeme, fdelmodc.c:590-657, without the visco schemes (2, 4), the
    dissipative scheme (-1) and the moving grid (-2); "mod.ischeme <= 2" selects the acoustic
    boundary conditions *)
Definition fd_kernel (g : grid) (b : bnd) (surface : Z -> Z) (src_type : Z) (sources : list (Z * Z)) (dxi : Q)
    (ischeme : Z) (sh : bool) : list item :=
  match ischeme with
  | 1 => match iorder g with
         | 2 => acoustic2 g b false surface src_type sources dxi
         | 4 => if sh then acousticSH4 g b false surface src_type sources dxi else acoustic4 g b false surface src_type sources dxi
         | 6 => acoustic6 g b false surface src_type sources dxi
         | 16 => acoustic16 g b false surface src_type sources dxi
         | _ => []
         end
  | 3 => match iorder g with
         | 4 => elastic4 g b true surface src_type sources dxi
         | 6 => elastic6 g b true surface src_type sources dxi
         | _ => []
         end
  | 5 => elastic4dc g b true surface src_type sources dxi
  | _ => []
  end.
