(** utils/diffraction.c and utils/elipse.c: diffractors and elliptic bodies of makemod.  Numbers are real numbers; a grid is a function of column and row. *)
From Coq Require Import ZArith Reals List Bool.
From Verif Require Import FdKernels Marchenko BodiesSpec.
Import ListNotations.
Local Open Scope Z_scope.

(** diffraction.c:5, elipse.c:5 *)
Definition nint (x : R) : Z := if Rlt_dec 0 x then Int_part (x + / 2) else - Int_part (/ 2 - x).
Definition cell_eqb (a b : cell) : bool := (fst a =? fst b) && (snd a =? snd b).
(** med[ix][iz] = value for the cells of the list, in order *)
Definition fill {V} (med : cell -> V) (cells : list cell) (value : V) : cell -> V := fold_left (fun m c => fun d => if cell_eqb d c then value else m d) cells med.
(** diffraction.c:15-24; -w/2 in C is (-w)/2 rounded to zero *)
Definition makesquare (ix iz w : Z) : list cell :=
  flat_map (fun j => map (fun k => (ix + j, iz + k)) (range (Z.quot (- w) 2) (Z.quot w 2))) (range (Z.quot (- w) 2) (Z.quot w 2)).
(** diffraction.c:26-48 *)
Definition makediamond (ix iz w : Z) : list cell :=
  let id := Z.quot w 2 in
  [(ix - id, iz); (ix + id, iz)] ++
  flat_map (fun j => map (fun k => (ix + j, iz + k)) (range (- (j + id)) (j + id + 1))) (range (- id + 1) 1) ++
  flat_map (fun j => map (fun k => (ix + j, iz + k)) (range (j - id) (- (j - id) + 1))) (range 1 (id - 1 + 1)).
(** diffraction.c:50-62 *)
Definition makecircle (ix iz w : Z) : list cell :=
  let id := Z.quot w 2 in
  flat_map (fun j => flat_map (fun k => if nint (sqrt (IZR (j * j + k * k))) <=? id then [(ix + j, iz + k)] else []) (range (- id) (id + 1))) (range (- id) (id + 1)).
(** diffraction.c:79-90 *)
Definition shape (type ix iz w : Z) : list cell := if type =? 1 then makediamond ix iz w else if type =? 2 then makecircle ix iz w else makesquare ix iz w.
(** elipse.c:36-42 for the cells of point (xi, zi) *)
Definition ellipse_cells (nx nz : Z) (dx dz r1 r2 : R) (ixm izm : Z) : list cell :=
  let izr := nint (r1 / dz) in let ixr := nint (r2 / dx) in
  flat_map (fun ix => flat_map (fun iz =>
    let xr := (IZR (ix - ixm) * dx / r2)%R in let zr := (IZR (iz - izm) * dz / r1)%R in
    if Rle_dec (sqrt (xr * xr + zr * zr)) 1 then [(ix, iz)] else []) (range (Z.max (izm - izr) 0) (Z.min (izm + izr) (nz - 1) + 1))) (range (Z.max (ixm - ixr) 0) (Z.min (ixm + ixr) (nx - 1) + 1)).

Section BODIES.
Context {V : Type}.
(** the grids of makemod, None: NULL *)
Record media := mkM { gridcp : cell -> V; gridcs : option (cell -> V); gridro : option (cell -> V) }.
(** cp[2][i], cs[2][i], ro[2][i] *)
Record values := mkV { vcp : Z -> V; vcs : Z -> V; vro : Z -> V }.
(** the loop over the points; cells i: those of point i *)
Definition paint (nxp : Z) (cells : Z -> list cell) (v : Z -> V) (m : cell -> V) : cell -> V := fold_left (fun m i => fill m (cells i) (v i)) (range 0 nxp) m.
(** diffraction.c:74-135, elipse.c:31-93 with gradcp = gradcs = gradro = 0; None: a NULL grid is written *)
Definition place (nxp : Z) (cells : Z -> list cell) (v : values) (m : media) : option media :=
  match gridcs m, gridro m with
  | None, None => Some (mkM (paint nxp cells (vcp v) (gridcp m)) None None)
  | None, Some ro => Some (mkM (paint nxp cells (vcp v) (gridcp m)) None (Some (paint nxp cells (vro v) ro)))
  | Some cs, Some ro => Some (mkM (paint nxp cells (vcp v) (gridcp m)) (Some (paint nxp cells (vcs v) cs)) (Some (paint nxp cells (vro v) ro)))
  | Some cs, None => if nxp <=? 0 then Some m else None
  end.
Definition diffraction (nxp : Z) (x z : Z -> R) (dx dz : R) (diffrwidth type : Z) (v : values) (m : media) : option media :=
  place nxp (fun i => shape type (nint (x i / dx)) (nint (z i / dz)) diffrwidth) v m.
Definition elipse (nxp : Z) (x z : Z -> R) (dx dz : R) (nx nz : Z) (r1 r2 : R) (v : values) (m : media) : option media :=
  place nxp (fun i => ellipse_cells nx nz dx dz r1 r2 (nint (x i / dx)) (nint (z i / dz))) v m.
(** diffraction.c:69-72,76-77 and elipse.c:26-29,35-36: interface and zp *)
Definition depths (nx nxp : Z) (x z : Z -> R) (dx dz : R) (itf : Z -> R) (zp : Z -> Z) : (Z -> R) * (Z -> Z) :=
  (fold_left (fun m i => upd m (nint (x i / dx)) (z i)) (range 0 nxp) (fold_left (fun m i => upd m i 0%R) (range 0 nx) itf),
   fold_left (fun m i => upd m (nint (x i / dx)) (nint (z i / dz))) (range 0 nxp) (fold_left (fun m i => upd m i 0) (range 0 nx) zp)).
End BODIES.
