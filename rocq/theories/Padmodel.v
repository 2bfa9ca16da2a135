(** utils/padmodel.c:89-213, the grid.  Arrays are functions from the index; the loops are written as the lists of their assignments in program order.
    The headers are not modelled. *)
From Coq Require Import ZArith Reals List.
From Verif Require Import FdKernels Marchenko.
Import ListNotations.
Local Open Scope Z_scope.

(** the sizes of the model and of the extension *)
Record pads := mkPads { nx : Z; ny : Z; nz : Z; nxpad : Z; nypad : Z; nzpad : Z }.
(** lines 89-91 *)
Definition nxout (p : pads) : Z := nx p + 2 * nxpad p.
Definition nyout (p : pads) : Z := ny p + 2 * nypad p.
Definition nzout (p : pads) : Z := nz p + 2 * nzpad p.
(** index in outdata of cell (iy, ix, iz) *)
Definition addr (p : pads) (c : Z * Z * Z) : Z := let '(iy, ix, iz) := c in iy * nxout p * nzout p + ix * nzout p + iz.
(** for (i=n-1; i>=0; i--) *)
Definition down (n : Z) : list Z := rev (range 0 n).
(** lines 130-136: the data inside; outdata is zero before *)
Definition place (p : pads) (indata : Z -> R) : Z -> R :=
  fold_left (fun o '(iy, ix, iz) => upd o (addr p (iy + nypad p, ix + nxpad p, iz + nzpad p)) (indata (iy * nx p * nz p + ix * nz p + iz)))
    (flat_map (fun iy => flat_map (fun ix => map (fun iz => (iy, ix, iz)) (range 0 (nz p))) (range 0 (nx p))) (range 0 (ny p))) (fun _ => 0%R).
(** lines 144-171: the cells that get the constant *)
Definition constant_cells (p : pads) : list (Z * Z * Z) :=
  flat_map (fun iz =>
    flat_map (fun iy => map (fun ix => (iy, ix, iz)) (range 0 (nxpad p)) ++ map (fun ix => (iy, ix, iz)) (range (nxpad p + nx p) (nxout p))) (range (nypad p) (ny p + nypad p)) ++
    flat_map (fun ix => map (fun iy => (iy, ix, iz)) (range 0 (nypad p)) ++ map (fun iy => (iy, ix, iz)) (range (nypad p + ny p) (nyout p))) (range 0 (nxout p))) (range 0 (nz p)) ++
  flat_map (fun iz => flat_map (fun iy => map (fun ix => (iy, ix, iz)) (range 0 (nxout p))) (range 0 (nyout p))) (range (nz p) (nzout p)).
(** lines 179-197: the sides, destination and source *)
Definition side_copies (p : pads) : list ((Z * Z * Z) * (Z * Z * Z)) :=
  flat_map (fun iz =>
    flat_map (fun iy => map (fun ix => ((iy, ix, iz), (iy, nxpad p, iz))) (down (nxpad p)) ++ map (fun ix => ((iy, ix, iz), (iy, nxpad p + nx p - 1, iz))) (range (nxpad p + nx p) (nxout p))) (range (nypad p) (ny p + nypad p)) ++
    flat_map (fun ix => map (fun iy => ((iy, ix, iz), (nypad p, ix, iz))) (down (nypad p)) ++ map (fun iy => ((iy, ix, iz), (nypad p + ny p - 1, ix, iz))) (range (nypad p + ny p) (nyout p))) (range 0 (nxout p))) (range (nzpad p) (nz p + nzpad p)).
(** lines 198-204 and 205-211: above and below *)
Definition top_copies (p : pads) : list ((Z * Z * Z) * (Z * Z * Z)) :=
  flat_map (fun iz => flat_map (fun iy => map (fun ix => ((iy, ix, iz), (iy, ix, nzpad p))) (range 0 (nxout p))) (range 0 (nyout p))) (range 0 (nzpad p)).
Definition bottom_copies (p : pads) : list ((Z * Z * Z) * (Z * Z * Z)) :=
  flat_map (fun iz => flat_map (fun iy => map (fun ix => ((iy, ix, iz), (iy, ix, nz p - 1))) (range 0 (nxout p))) (range 0 (nyout p))) (range (nz p) (nzout p)).
Definition run_copies (p : pads) (l : list ((Z * Z * Z) * (Z * Z * Z))) (o : Z -> R) : Z -> R := fold_left (fun o '(d, s) => upd o (addr p d) (o (addr p s))) l o.
(** lines 119-213 *)
Definition padmodel (pad : bool) (value : R) (p : pads) (indata : Z -> R) : Z -> R :=
  let o := place p indata in
  if pad then fold_left (fun o c => upd o (addr p c) value) (constant_cells p) o
  else run_copies p (bottom_copies p) (run_copies p (top_copies p) (run_copies p (side_copies p) o)).
