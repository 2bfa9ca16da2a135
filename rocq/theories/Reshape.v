(** Rearrangement of snapshots: utils/readSnapData3D.c, utils/reshape_su.c, utils/snap2shot.c.  Arrays are functions from the index, of any kind of values. *)
From Coq Require Import ZArith List.
From Verif Require Import FdKernels Marchenko.
Import ListNotations.
Local Open Scope Z_scope.

(** readSnapData3D.c:41-52 (tmpdata: the samples of all traces of the file): the part sx..ex-1, sy..ey-1, sz..ez-1 of the file; loops over z, y, x, snapshot *)
Definition read_snap {V} (nsnaps nx ny nz sx ex sy ey sz ez : Z) (tmpdata data : Z -> V) : Z -> V :=
  let dx := ex - sx in let dy := ey - sy in let dz := ez - sz in
  fold_left (fun o iz => fold_left (fun o iy => fold_left (fun o ix => fold_left (fun o it =>
    upd o (it * dy * dx * dz + (iy - sy) * dx * dz + (ix - sx) * dz + iz - sz) (tmpdata (it * ny * nx * nz + iy * nx * nz + ix * nz + iz)))
    (range 0 nsnaps) o) (range sx ex) o) (range sy ey) o) (range sz ez) data.
(** reshape_su.c:116-126 *)
Definition reshape {V} (n1 n2 n3 n4 : Z) (indata outdata : Z -> V) : Z -> V :=
  fold_left (fun o i4 => fold_left (fun o i3 => fold_left (fun o i2 => fold_left (fun o i1 =>
    upd o (i1 * n4 * n2 * n3 + i3 * n4 * n2 + i2 * n4 + i4) (indata (i4 * n1 * n2 * n3 + i3 * n1 * n2 + i2 * n1 + i1)))
    (range 0 n1) o) (range 0 n2) o) (range 0 n3) o) (range 0 n4) outdata.
(** snap2shot.c:155-171; snap ixr: the snapshots of file ixr as read *)
Definition snap2shot {V} (nxr dnz nys nxs nts : Z) (snap : Z -> Z -> V) (rcvdata : Z -> V) : Z -> V :=
  fold_left (fun o ixr => fold_left (fun o iz => fold_left (fun o iy => fold_left (fun o ix => fold_left (fun o it =>
    upd o (iz * nys * nxs * nxr * nts + iy * nxs * nxr * nts + ix * nxr * nts + ixr * nts + it) (snap ixr (it * nys * nxs * dnz + iy * nxs * dnz + ix * dnz + iz)))
    (range 0 nts) o) (range 0 nxs) o) (range 0 nys) o) (range 0 dnz) o) (range 0 nxr) rcvdata.
