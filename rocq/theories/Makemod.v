(** Model of the model builder makemod (utils/): interfaces (interpolation.c, polint.c, spline.c,
    linearint.c, sinuousint.c), gridding (grid.c, gridabove.c), and the sequence of interfaces, the
    smoothing and the reflectivity of makemod.c.  Definitions only.

    Numbers are rational: rounding is not modelled.  Arrays are functions from the index.  A division
    by zero (infinite or not-a-number values in the result) and a call of exit are the outcome [None].
    The functions cos and sin are parameters.
    Not modelled: random interfaces and media (optgrad 4), roughint, fractint, elipse, diffraction,
    randdf, ray files. *)
From Coq Require Import ZArith QArith List Bool.
From Verif Require Import FdKernels Marchenko.
Import ListNotations.
Local Open Scope Z_scope.

Definition Qltb (a b : Q) : bool := negb (Qle_bool b a).
Definition Qabs' (a : Q) : Q := if Qltb a 0 then (- a)%Q else a.

(** ** polint.c *)
(** polint.c:21-28: the index of the abscissa nearest to x *)
Definition nearest (xa : Z -> Q) (n : Z) (x : Q) : Z :=
  fst (fold_left (fun (s : Z * Q) i => let dift := Qabs' (x - xa i) in if Qltb dift (snd s) then (i, dift) else s)
         (range 1 (n + 1)) (1, Qabs' (x - xa 1%Z))).
(** polint.c:32-43: the loop over i *)
Definition polint_row (xa : Z -> Q) (n : Z) (x : Q) (m : Z) (s : option ((Z -> Q) * (Z -> Q))) : option ((Z -> Q) * (Z -> Q)) :=
  fold_left (fun s i =>
    match s with
    | None => None
    | Some (c, d) =>
      let ho := (xa i - x)%Q in
      let hp := (xa (i + m)%Z - x)%Q in
      let w := (c (i + 1)%Z - d i)%Q in
      let den := (ho - hp)%Q in
      if Qeq_bool den 0 then None
      else let den := (w / den)%Q in Some (upd c i (ho * den)%Q, upd d i (hp * den)%Q)
    end) (range 1 (n - m + 1)) s.
(** polint.c:31-45: the loop over m; the state is c, d, y, dy, ns *)
Definition polint_step (xa : Z -> Q) (n : Z) (x : Q) (s : option ((Z -> Q) * (Z -> Q) * Q * Q * Z)) (m : Z) : option ((Z -> Q) * (Z -> Q) * Q * Q * Z) :=
  match s with
  | None => None
  | Some (c, d, y, dy, ns) =>
    match polint_row xa n x m (Some (c, d)) with
    | None => None
    | Some (c, d) =>
      if 2 * ns <? n - m then Some (c, d, (y + c (ns + 1)%Z)%Q, c (ns + 1), ns)
      else Some (c, d, (y + d ns)%Q, d ns, ns - 1)
    end
  end.
(** polint.c:14-48; dy0 is the value of *dy before the call.  None: exit *)
Definition polint (xa ya : Z -> Q) (n : Z) (x dy0 : Q) : option (Q * Q) :=
  let ns := nearest xa n x in
  match fold_left (polint_step xa n x) (range 1 n) (Some (ya, ya, ya ns, dy0, ns - 1)) with
  | Some (_, _, y, dy, _) => Some (y, dy)
  | None => None
  end.

(** ** spline.c *)
(** spline.c:20: 0.99e30 *)
Definition huge : Q := inject_Z (99 * 10 ^ 28).
(** spline.c:26-32: the loop over i *)
Definition spline_row (x y : Z -> Q) (s : (Z -> Q) * (Z -> Q)) (i : Z) : (Z -> Q) * (Z -> Q) :=
  let '(y2, u) := s in
  let sig := ((x i - x (i - 1)%Z) / (x (i + 1)%Z - x (i - 1)%Z))%Q in
  let p := (sig * y2 (i - 1)%Z + 2)%Q in
  let y2 := upd y2 i ((sig - 1) / p)%Q in
  let v := ((y (i + 1)%Z - y i) / (x (i + 1)%Z - x i) - (y i - y (i - 1)%Z) / (x i - x (i - 1)%Z))%Q in
  (y2, upd u i ((6 * v / (x (i + 1)%Z - x (i - 1)%Z) - sig * u (i - 1)%Z) / p)%Q).
(** spline.c:14-43; a is the array y2 before the call *)
Definition spline (x y : Z -> Q) (n : Z) (yp1 ypn : Q) (a : Z -> Q) : Z -> Q :=
  let s0 := if Qltb huge yp1 then (upd a 1 0%Q, upd a 1 0%Q)
            else (upd a 1 (- (1 # 2))%Q, upd a 1 ((3 / (x 2%Z - x 1%Z)) * ((y 2%Z - y 1%Z) / (x 2%Z - x 1%Z) - yp1))%Q) in
  let '(y2, u) := fold_left (spline_row x y) (range 2 n) s0 in
  let '(qn, un) := if Qltb huge ypn then (0%Q, 0%Q)
            else ((1 # 2)%Q, ((3 / (x n - x (n - 1)%Z)) * (ypn - (y n - y (n - 1)%Z) / (x n - x (n - 1)%Z)))%Q) in
  let y2 := upd y2 n ((un - qn * u (n - 1)%Z) / (qn * y2 (n - 1)%Z + 1))%Q in
  fold_left (fun y2 k => upd y2 k (y2 k * y2 (k + 1)%Z + u k)%Q) (rev (range 1 n)) y2.
(** spline.c:51-57: the search for the interval; at most n steps *)
Fixpoint bracket (fuel : nat) (xa : Z -> Q) (x : Q) (klo khi : Z) : Z * Z :=
  match fuel with
  | O => (klo, khi)
  | S fuel =>
    if 1 <? khi - klo then
      let k := Z.shiftr (khi + klo) 1 in
      if Qltb x (xa k) then bracket fuel xa x klo k else bracket fuel xa x k khi
    else (klo, khi)
  end.
(** spline.c:46-63; None: division by h = 0 *)
Definition splint (xa ya y2a : Z -> Q) (n : Z) (x : Q) : option Q :=
  let '(klo, khi) := bracket (Z.to_nat n) xa x 1 n in
  let h := (xa khi - xa klo)%Q in
  if Qeq_bool h 0 then None
  else
    let a := ((xa khi - x) / h)%Q in
    let b := ((x - xa klo) / h)%Q in
    Some (a * ya klo + b * ya khi + ((a * a * a - a) * y2a klo + (b * b * b - b) * y2a khi) * (h * h) / 6)%Q.

(** ** interpolation.c *)
(** The columns covered: *pminx, *pmaxx, minx, maxx, np.
    interpolation.c:45-54: the update for one point *)
Record cover := mkCover { pminx : Z; pmaxx : Z; minx : Q; maxx : Q; np : Z; xprev : Q }.
Definition cover_point (dx : Q) (nx : Z) (c : cover) (xi : Q) : cover :=
  let c := if Qltb xi (minx c) then mkCover (NINT (xi / dx)) (pmaxx c) xi (maxx c) (NINT (xi / dx)) xi else c in
  if Qltb (maxx c) xi then mkCover (pminx c) (Z.min (NINT ((xi + dx) / dx)) nx) (minx c) xi (np c) (xprev c) else c.
(** interpolation.c:40-43 *)
Definition cover0 (dx : Q) (nx pmin pmax : Z) : cover := mkCover pmin pmax (inject_Z nx * dx)%Q 0%Q 0 0%Q.
(** interpolation.c:59-61: ndeltx values along a segment, while np < nx *)
Fixpoint segment (k : nat) (j : Z) (nx : Z) (zprev dx deltz deltx : Q) (s : (Z -> Q) * Z) : (Z -> Q) * Z :=
  match k with
  | O => s
  | S k => let '(itf, np) := s in
           if np <? nx then segment k (j + 1) nx zprev dx deltz deltx (upd itf np (zprev + (inject_Z j * dx * deltz) / deltx)%Q, np + 1)
           else (itf, np)
  end.
(** interpolation.c:44-64: one point; the state is the columns, zprev and the interface *)
Definition linear_point (x z : Z -> Q) (nx : Z) (dx : Q) (s : cover * Q * (Z -> Q)) (i : Z) : cover * Q * (Z -> Q) :=
  let '(c, zprev, itf) := s in
  let c := cover_point dx nx c (x i) in
  let deltx := (x i - xprev c)%Q in
  let deltz := (z i - zprev)%Q in
  let ndeltx := if i =? 0 then -1 else NINT (Qabs' (deltx / dx)) in
  let '(itf, np') := segment (Z.to_nat ndeltx) 0 nx zprev dx deltz deltx (itf, np c) in
  (mkCover (pminx c) (pmaxx c) (minx c) (maxx c) np' (x i), z i, itf).
(** interpolation.c:39-66 *)
Definition interface_linear (x z : Z -> Q) (nxp nx : Z) (dx : Q) (pmin pmax : Z) (itf : Z -> Q) : Z * Z * (Z -> Q) :=
  let '(c, _, itf) := fold_left (linear_point x z nx dx) (range 0 nxp) (cover0 dx nx pmin pmax, 0%Q, itf) in
  (pminx c, pmaxx c, fold_left (fun itf j => upd itf j (z (nxp - 1))) (range (np c) (pmaxx c)) itf).
(** interpolation.c:73-86, 102-115 *)
Definition columns (x : Z -> Q) (nxp nx : Z) (dx : Q) (pmin pmax : Z) : Z * Z :=
  let c := fold_left (fun c i => cover_point dx nx c (x i)) (range 0 nxp) (cover0 dx nx pmin pmax) in (pminx c, pmaxx c).
(** interpolation.c:87-90, 119-122: a value at every column, or None *)
Definition at_columns (f : Q -> option Q) (a b : Z) (dx : Q) (itf : Z -> Q) : option (Z -> Q) :=
  fold_left (fun s j => match s, f (inject_Z j * dx)%Q with Some itf, Some v => Some (upd itf j v) | _, _ => None end) (range a b) (Some itf).
(** interpolation.c:67-93 *)
Definition interface_poly (x z : Z -> Q) (nxp nx : Z) (dx : Q) (pmin pmax : Z) (itf : Z -> Q) : option (Z * Z * (Z -> Q)) :=
  let '(a, b) := columns x nxp nx dx pmin pmax in
  match at_columns (fun xp => option_map fst (polint (fun i => x (i - 1)) (fun i => z (i - 1)) nxp xp 0)) a b dx itf with Some itf => Some (a, b, itf) | None => None end.
(** interpolation.c:94-126; yp1 = ypn = 1e30 *)
Definition interface_spline (x z : Z -> Q) (nxp nx : Z) (dx : Q) (pmin pmax : Z) (itf : Z -> Q) : option (Z * Z * (Z -> Q)) :=
  let '(a, b) := columns x nxp nx dx pmin pmax in
  let y2 := spline (fun i => x (i - 1)) (fun i => z (i - 1)) nxp (inject_Z (10 ^ 30)) (inject_Z (10 ^ 30)) (fun _ => 0%Q) in
  match at_columns (splint (fun i => x (i - 1)) (fun i => z (i - 1)) y2 nxp) a b dx itf with Some itf => Some (a, b, itf) | None => None end.
(** interpolation.c:39-126 *)
Definition interface_of (poly : Z) (x z : Z -> Q) (nxp nx : Z) (dx : Q) (pmin pmax : Z) (itf : Z -> Q) : option (Z * Z * (Z -> Q)) :=
  if poly =? 0 then Some (interface_linear x z nxp nx dx pmin pmax itf)
  else if poly =? 1 then interface_poly x z nxp nx dx pmin pmax itf
  else if poly =? 2 then interface_spline x z nxp nx dx pmin pmax itf
  else Some (pmin, pmax, itf).

(** A property (cp, cs or ro): the rows [0] and [1] over the columns; row [2] holds the given values. *)
(** interpolation.c:160-165 *)
Fixpoint lateral_segment (k : nat) (j : Z) (prev dx delt deltx : Q) (s : (Z -> Q) * Z) : (Z -> Q) * Z :=
  match k with
  | O => s
  | S k => let '(c, np) := s in lateral_segment k (j + 1) prev dx delt deltx (upd c np (prev + (inject_Z j * dx * delt) / deltx)%Q, np + 1)
  end.
(** interpolation.c:141-169 *)
Definition lateral_point (x v : Z -> Q) (nx : Z) (dx : Q) (s : cover * Q * (Z -> Q)) (i : Z) : cover * Q * (Z -> Q) :=
  let '(c, prev, row) := s in
  let c := cover_point dx nx c (x i) in
  let deltx := (x i - xprev c)%Q in
  let ndeltx := if i =? 0 then -1 else NINT (Qabs' (deltx / dx)) - 1 in
  let ndeltx := if ndeltx =? 0 then 1 else ndeltx in
  let '(row, np') := lateral_segment (Z.to_nat (ndeltx + 1)) 0 prev dx (v i - prev)%Q deltx (row, np c) in
  (mkCover (pminx c) (pmaxx c) (minx c) (maxx c) np' (x i), v i, row).
(** interpolation.c:129-214: the new rows [0] and [1]; v is row [2] *)
Definition lateral (nvel : Z) (x v : Z -> Q) (nxp nx : Z) (dx : Q) (row1 : Z -> Q) : (Z -> Q) * (Z -> Q) :=
  if nvel =? 1 then (row1, fold_left (fun r j => upd r j (v 0)) (range 0 nx) row1)
  else if nvel =? 2 then
    let deltx := (x (nxp - 1)%Z - x 0%Z)%Q in
    (row1, fst (lateral_segment (Z.to_nat (NINT (Qabs' (deltx / dx)) + 1)) 0 (v 0) dx (v 1%Z - v 0%Z)%Q deltx (row1, NINT (x 0%Z / dx))))
  else
    let '(c, prev, row) := fold_left (lateral_point x v nx dx) (range 0 nxp) (cover0 dx nx 0 0, 0%Q, row1) in
    (row1, upd row (np c) prev).

(** ** linearint.c, sinuousint.c *)
(** linearint.c:15-24 *)
Definition linearint (zp : Z -> Z) (a b : Z) (dz : Q) (itf : Z -> Q) : Z -> Z :=
  fold_left (fun zp i => upd zp i (Z.max (NINT (itf i / dz)) 0)) (range a b) zp.
(** sinuousint.c:18-31; sin2 t stands for sin(2*M_PI*t) *)
Definition sinuousint (sin2 : Q -> Q) (zp : Z -> Z) (a b : Z) (dz : Q) (itf : Z -> Q) (dx ampl wavel : Q) : Z -> Z :=
  fst (fold_left (fun (s : (Z -> Z) * Z) i =>
         let '(zp, j) := s in
         let d := NINT ((itf i + ampl * sin2 (inject_Z j * dx / wavel)%Q) / dz) in
         (upd zp i (if d <? 0 then 0 else d), j + 1)) (range a b) (zp, 0)).

(** ** grid.c, gridabove.c *)
Section GRID.
Variable cospi : Q -> Q.   (* cos(M_PI * t) *)
(** grid.c:42-49, 60-68: a column.  The grid is one array with nz values per column.  opt is 1 or 2. *)
Definition gradient_column (opt i nz zpi g : Z) (c0 c1 grad : Q) (m : Z -> Q) : Z -> Q :=
  let delt := ((c1 - c0) / inject_Z g)%Q in
  let k0 := if zpi =? 0 then 1 else 0 in
  let gradend := Z.min (zpi + g) nz in
  let '(m, _) := fold_left (fun (s : (Z -> Q) * Z) j =>
      let '(m, k) := s in
      let f := if opt =? 1 then inject_Z k else (- inject_Z g * (cospi (inject_Z k / inject_Z g)%Q - 1) / 2)%Q in
      (upd m (i * nz + j) (c0 + delt * f)%Q, k + 1)) (range zpi (gradend + 1)) (m, k0) in
  fst (fold_left (fun (s : (Z -> Q) * Z) j => let '(m, k) := s in (upd m (i * nz + j) (c1 + inject_Z k * grad)%Q, k + 1)) (range (gradend + 1) nz) (m, 0)).
(** grid.c:73-75 and gridabove.c:72-74: from row a to row b *)
Definition plain_column (i nz a b : Z) (c1 grad : Q) (m : Z -> Q) : Z -> Q :=
  fst (fold_left (fun (s : (Z -> Q) * Z) j => let '(m, k) := s in (upd m (i * nz + j) (c1 + inject_Z k * grad)%Q, k + 1)) (range a b) (m, 0)).
(** grid.c:34-77, gridabove.c:30-76: one property *)
Definition grid_one (above : bool) (opt a b nz : Z) (gradlen grad dz : Q) (zp : Z -> Z) (c0 c1 : Z -> Q) (m : Z -> Q) : option (Z -> Q) :=
  let g := NINT (gradlen / dz) - 1 in
  if (opt =? 1) || (opt =? 2) then
    if (g =? 0) && (a <? b) then None
    else Some (fold_left (fun m i => gradient_column opt i nz (zp i) g (c0 i) (c1 i) grad m) (range a b) m)
  else if opt =? 3 then
    Some (fold_left (fun m i => if above then plain_column i nz 0 (zp i) (c1 i) grad m else plain_column i nz (zp i) nz (c1 i) grad m) (range a b) m)
  else Some m.
(** The rows of a property: row [0], row [1], its gradient *)
Definition rows : Type := (Z -> Q) * (Z -> Q) * Q.
Definition grid_rows (above : bool) (opt a b nz : Z) (gradlen dz : Q) (zp : Z -> Z) (r : rows) (m : Z -> Q) : option (Z -> Q) :=
  let '(c0, c1, grad) := r in grid_one above opt a b nz gradlen grad dz zp c0 c1 m.
(** grid.c:33-, gridabove.c:31-: the grids gridcs and gridro may be NULL (None).  The outer None
    stands for a store through NULL or a division by zero.  The stores of the three properties are
    interleaved in the code; the arrays are disjoint. *)
Definition grid (above : bool) (opt a b nz : Z) (gradlen dz : Q) (zp : Z -> Z) (rcp rcs rro : rows)
    (gcp : Z -> Q) (gcs gro : option (Z -> Q)) : option ((Z -> Q) * option (Z -> Q) * option (Z -> Q)) :=
  let one r m := grid_rows above opt a b nz gradlen dz zp r m in
  match gcs, gro with
  | None, None => match one rcp gcp with Some p => Some (p, None, None) | None => None end
  | None, Some ro => match one rcp gcp, one rro ro with Some p, Some r => Some (p, None, Some r) | _, _ => None end
  | Some cs, Some ro => match one rcp gcp, one rcs cs, one rro ro with Some p, Some s, Some r => Some (p, Some s, Some r) | _, _, _ => None end
  | Some cs, None => if (a <? b) && ((opt =? 1) || (opt =? 2) || (opt =? 3)) then None else Some (gcp, Some cs, None)
  end.

(** ** makemod.c: the interfaces, P velocity only *)
(** a layer: its points, interpolation option, velocities, boundary and vertical gradient *)
Record layer := mkLayer { l_x : list Q; l_z : list Q; l_poly : Z; l_cp : list Q; l_gradlen : Q; l_gradcp : Q }.
Record mstate := mkM { m_min : Z; m_max : Z; m_zp : Z -> Z; m_c0 : Z -> Q; m_c1 : Z -> Q; m_grid : Z -> Q }.
Definition arr (l : list Q) : Z -> Q := fun i => nth (Z.to_nat i) l 0%Q.
(** makemod.c:383-406: the homogeneous background *)
Definition background (nx nz : Z) (cp0 : Q) (m : Z -> Q) (dz : Q) : mstate :=
  let c := fun _ : Z => cp0 in
  mkM 0 nx (fun _ => 0) c c (fold_left (fun m i => plain_column i nz 0 nz cp0 0 m) (range 0 nx) m).
(** makemod.c:418-634: an interface of type def (interface memory cleared, interpolation, linearint,
    grid); above = 0, gradunit = 0 and the option gradt; x and z are relative to the origin *)
Definition add_layer (gradt nx nz : Z) (dx dz : Q) (s : option mstate) (l : layer) : option mstate :=
  match s with
  | None => None
  | Some s =>
    let x := arr (l_x l) in
    let nxp := Z.of_nat (length (l_x l)) in
    let nvel := Z.of_nat (length (l_cp l)) in
    match interface_of (l_poly l) x (arr (l_z l)) nxp nx dx (m_min s) (m_max s) (fun _ => 0%Q) with
    | None => None
    | Some (a, b, itf) =>
      let '(c0, c1) := lateral nvel x (arr (l_cp l)) nxp nx dx (m_c1 s) in
      let zp := linearint (m_zp s) a b dz itf in
      let opt := if Qltb 0 (l_gradlen l) then gradt else 3 in
      match grid_one false opt a b nz (l_gradlen l) (l_gradcp l) dz zp c0 c1 (m_grid s) with
      | None => None
      | Some m => Some (mkM a b zp c0 c1 m)
      end
    end
  end.
Definition makemod (gradt nx nz : Z) (dx dz cp0 : Q) (ls : list layer) (m : Z -> Q) : option (Z -> Q) :=
  option_map m_grid (fold_left (add_layer gradt nx nz dx dz) ls (Some (background nx nz cp0 m dz))).
End GRID.

(** ** makemod.c: smoothing and reflectivity *)
Section SMOOTH.
Variable W : Z -> Z -> Q.   (* Wsmooth[ixi+2][izi+2], makemod.c:652-660 *)
Definition stencil : list (Z * Z) := list_prod (range (-2) 3) (range (-2) 3).
(** makemod.c:651-661: C *)
Definition wsum : Q := fold_left (fun c p => c + W (fst p) (snd p))%Q stencil 0%Q.
(** makemod.c:670-676 *)
Definition smooth_slow (nz : Z) (m : Z -> Q) (ix iz : Z) : Q :=
  (1 / ((1 / wsum) * fold_left (fun s p => s + W (fst p) (snd p) / m ((4 * ix + 2 + fst p) * nz + (4 * iz + 2 + snd p))%Z)%Q stencil 0))%Q.
(** makemod.c:702-708 *)
Definition smooth_mean (nz : Z) (m : Z -> Q) (ix iz : Z) : Q :=
  ((1 / wsum) * fold_left (fun s p => s + W (fst p) (snd p) * m ((4 * ix + 2 + fst p) * nz + (4 * iz + 2 + snd p))%Z)%Q stencil 0)%Q.
(** makemod.c:668-691, 700-722: the smoothed grid, from the average f at the inner points; edges are copied *)
Definition smooth_grid (f : Z -> Z -> Q) (nxout nzout : Z) (d : Z -> Q) : Z -> Q :=
  let d := fold_left (fun d ix =>
      let d := fold_left (fun d iz => upd d (ix * nzout + iz) (f ix iz)) (range 0 (nzout - 1)) d in
      upd d (ix * nzout + (nzout - 1)) (d (ix * nzout + (nzout - 1) - 1))) (range 0 (nxout - 1)) d in
  let ix := nxout - 1 in
  let d := fold_left (fun d iz => upd d (ix * nzout + iz) (d ((ix - 1) * nzout + iz))) (range 0 (nzout - 1)) d in
  upd d (ix * nzout + (nzout - 1)) (d ((ix - 1) * nzout + (nzout - 1) - 1)).
(** makemod.c:665-732: supersmooth=1.  The coarse values are stored from the start of every column of
    the fine grid and written out with nxout columns of nzout rows; gridcs is not smoothed. *)
Definition store_coarse (nxout nzout nz : Z) (d m : Z -> Q) : Z -> Q :=
  fold_left (fun m ix => fold_left (fun m iz => upd m (ix * nz + iz) (d (ix * nzout + iz))) (range 0 nzout) m) (range 0 nxout) m.
Definition supersmooth (nx nz : Z) (d : Z -> Q) (cp cs ro : Z -> Q) : Z * Z * (Z -> Q) * (Z -> Q) * (Z -> Q) :=
  let nxout := (nx - 1) / 4 + 1 in
  let nzout := (nz - 1) / 4 + 1 in
  let d1 := smooth_grid (smooth_slow nz cp) nxout nzout d in
  let d2 := smooth_grid (smooth_mean nz ro) nxout nzout d1 in
  (nxout, nzout, store_coarse nxout nzout nz d1 cp, cs, store_coarse nxout nzout nz d2 ro).
End SMOOTH.
(** makemod.c:780-801: the reflectivity; None: division by zero *)
Definition reflectivity (nx nz : Z) (ro cp d : Z -> Q) : option (Z -> Q) :=
  let r := fold_left (fun s ix =>
      match fold_left (fun s iz =>
        match s with
        | None => None
        | Some d =>
          let Z1 := (ro (ix * nz + iz)%Z * cp (ix * nz + iz)%Z)%Q in
          let Z2 := (ro (ix * nz + (iz + 1))%Z * cp (ix * nz + (iz + 1))%Z)%Q in
          if Qeq_bool (Z2 + Z1) 0 then None else Some (upd d (ix * nz + iz) ((Z2 - Z1) / (Z2 + Z1))%Q)
        end) (range 0 (nz - 1)) s with
      | None => None
      | Some d => Some (upd d (ix * nz + nz - 1) 0%Q)
      end) (range 0 (nx - 1)) (Some d) in
  match r with
  | None => None
  | Some d => Some (fold_left (fun d iz => upd d ((nx - 1) * nz + iz) 0%Q) (range 0 nz) d)
  end.
