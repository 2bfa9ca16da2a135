(** fdelmodc/fdelmodc.c:470-508: depth of sources and receivers below the surface and the position of the surface; fdelmodc/boundaries.c:1639-1821:
    stresses at the free surfaces of the elastic schemes.  Numbers are real numbers; arrays are functions of the address ix*n1+iz. *)
From Coq Require Import ZArith Reals List Bool.
From Verif Require Import FdKernels Marchenko.
Import ListNotations.
Local Open Scope Z_scope.

Section SURFACE.
Variables (n1 n2 : Z) (l2m : Z -> R).
(** while (l2m[a] == v) a++; the array has n1*n2 values, None: the search leaves it *)
Fixpoint scan (fuel : nat) (v : R) (a : Z) : option Z :=
  match fuel with O => None | S f => if Req_EM_T (l2m a) v then scan f v (a + 1) else Some a end.
Definition search (v : R) (a : Z) : option Z := scan (Z.to_nat (n1 * n2 - a)) v a.
(** fdelmodc.c:470-473 *)
Definition first_column (g : FdKernels.grid) (b : bnd) : Z := if (lef b =? 4) || (lef b =? 2) then ioPx g + npml b else ioPx g.
Definition first_row (g : FdKernels.grid) (b : bnd) : Z := if (top b =? 4) || (top b =? 2) then ioPz g + npml b else ioPz g.
(** fdelmodc.c:477-487: row and depth (rec.z, rec.zr) of a receiver *)
Definition sink_receiver (px pz : Z) (sinkvel : R) (sinkdepth : Z) (dz : R) (ix iz : Z) (zr : R) : option (Z * R) :=
  match search sinkvel ((ix + px) * n1 + iz + pz) with
  | Some a => let iz' := a - ((ix + px) * n1 + pz) in let z := iz' + sinkdepth in Some (z, (zr + IZR (z - iz') * dz)%R)
  | None => None
  end.
(** fdelmodc.c:488-494 *)
Definition sink_source (px pz : Z) (sinkdepth ix iz : Z) : option Z :=
  match search 0%R ((ix + px) * n1 + iz + pz) with Some a => Some (a - ((ix + px) * n1 + pz) + sinkdepth) | None => None end.
(** fdelmodc.c:496-508; surface: the contents of bnd.surface from malloc (getParameters.c:528) *)
Definition scan_surface (g : FdKernels.grid) (b : bnd) (surface : Z -> Z) : option (Z -> Z) :=
  let px := first_column g b in let pz := first_row g b in
  let s := fold_left (fun s ix => match s with
      | Some s => match search 0%R ((ix + px) * n1 + pz) with Some a => Some (upd s (ix + px) (a - (ix + px) * n1)) | None => None end
      | None => None end) (range 0 (FdKernels.nx g)) (Some surface) in
  match s with
  | Some s =>
    let s := fold_left (fun s ix => upd s ix (s px)) (range 0 px) s in
    Some (fold_left (fun s ix => upd s ix (s (iePx g - 1))) (range (px + FdKernels.nx g) (iePx g)) s)
  | None => None
  end.
End SURFACE.

Record stresses := mkS { txx : Z -> R; tzz : Z -> R; txz : Z -> R }.
Section STRESS.
Variables (n1 : Z) (g : FdKernels.grid) (l2m lam vx vz : Z -> R) (surface : Z -> Z).
(** boundaries.c:1217-1218 *)
Definition c1 : R := (9 / 8)%R.
Definition c2 : R := (- (1 / 24))%R.
(** boundaries.c:1693, 1763, 1790, 1816 *)
Definition modulus (a : Z) : R := (l2m a - lam a * lam a / l2m a)%R.
(** boundaries.c:1694-1695, 1787-1788: difference of vx along a row *)
Definition dvx (ix iz : Z) : R := (c1 * (vx ((ix + 1) * n1 + iz)%Z - vx (ix * n1 + iz)%Z) + c2 * (vx ((ix + 2) * n1 + iz)%Z - vx ((ix - 1) * n1 + iz)%Z))%R.
(** boundaries.c:1760-1761, 1813-1814: difference of vz along a column *)
Definition dvz (ix iz : Z) : R := (c1 * (vz (ix * n1 + iz + 1)%Z - vz (ix * n1 + iz)%Z) + c2 * (vz (ix * n1 + iz + 2)%Z - vz (ix * n1 + iz - 1)%Z))%R.
(** a loop over columns in the given order; izp is the row of the column before it in this order *)
Definition columns (body : (Z -> R) -> Z -> (Z -> R)) (order : list Z) (m : Z -> R) : Z -> R :=
  fst (fold_left (fun '(m, izp) ix => let iz := surface ix in (if izp =? iz then body m ix else m, iz)) order (m, surface (ioPx g))).
(** boundaries.c:1662-1671 *)
Definition clear_tzz : (Z -> R) -> Z -> (Z -> R) := fun tzz ix => upd tzz (ix * n1 + surface ix) 0%R.
(** boundaries.c:1673-1684 *)
Definition mirror_txz : (Z -> R) -> Z -> (Z -> R) := fun txz ix =>
  let iz := surface ix in
  let txz := upd txz (ix * n1 + iz) (- txz (ix * n1 + iz + 1)%Z)%R in
  upd txz (ix * n1 + iz - 1) (- txz (ix * n1 + iz + 2)%Z)%R.
(** boundaries.c:1686-1700 *)
Definition along_txx : (Z -> R) -> Z -> (Z -> R) := fun txx ix =>
  let a := ix * n1 + surface ix in if Req_EM_T (l2m a) 0 then txx else upd txx a (- dvx ix (surface ix) * modulus a)%R.
(** boundaries.c:1661-1700, the columns in order; the loop of lines 1702-1740 over vertical edges, which has no effect on a surface without them, is
    not modelled *)
Definition free_top (s : stresses) : stresses :=
  mkS (columns along_txx (range (ioPx g) (iePx g)) (txx s)) (columns clear_tzz (range (ioPx g) (iePx g)) (tzz s)) (columns mirror_txz (range (ioTx g) (ieTx g)) (txz s)).
(** boundaries.c:1743-1767 *)
Definition free_right (s : stresses) : stresses :=
  let ix := iePx g in
  mkS (fold_left (fun m iz => upd m (ix * n1 + iz) 0%R) (range (ioPz g) (iePz g)) (txx s))
      (fold_left (fun m iz => if Req_EM_T (l2m (ix * n1 + iz)%Z) 0 then m else upd m (ix * n1 + iz) (- dvz ix iz * modulus (ix * n1 + iz))%R) (range (ioPz g) (iePz g)) (tzz s))
      (fold_left (fun m iz => let m := upd m ((ix + 1) * n1 + iz) (- m (ix * n1 + iz)%Z)%R in upd m ((ix + 2) * n1 + iz) (- m ((ix - 1) * n1 + iz)%Z)%R) (range (ioTz g) (ieTz g)) (txz s)).
(** boundaries.c:1770-1793 *)
Definition free_bottom (s : stresses) : stresses :=
  let iz := iePz g in
  mkS (fold_left (fun m ix => if Req_EM_T (l2m (ix * n1 + iz)%Z) 0 then m else upd m (ix * n1 + iz) (- dvx ix iz * modulus (ix * n1 + iz))%R) (range (ioPx g) (iePx g)) (txx s))
      (fold_left (fun m ix => upd m (ix * n1 + iz) 0%R) (range (ioPx g) (iePx g)) (tzz s))
      (fold_left (fun m ix => let m := upd m (ix * n1 + iz + 1) (- m (ix * n1 + iz)%Z)%R in upd m (ix * n1 + iz + 2) (- m (ix * n1 + iz - 1)%Z)%R) (range (ioTx g) (ieTx g)) (txz s)).
(** boundaries.c:1796-1819 *)
Definition free_left (s : stresses) : stresses :=
  let ix := ioPx g in
  mkS (fold_left (fun m iz => upd m (ix * n1 + iz) 0%R) (range (ioPz g) (iePz g)) (txx s))
      (fold_left (fun m iz => if Req_EM_T (l2m (ix * n1 + iz)%Z) 0 then m else upd m (ix * n1 + iz) (- dvz ix iz * modulus (ix * n1 + iz))%R) (range (ioPz g) (iePz g)) (tzz s))
      (fold_left (fun m iz => let m := upd m (ix * n1 + iz) (- m ((ix + 1) * n1 + iz)%Z)%R in upd m ((ix - 1) * n1 + iz) (- m ((ix + 2) * n1 + iz)%Z)%R) (range (ioTz g) (ieTz g)) (txz s)).
(** boundaries.c:1661-1820 *)
Definition free_surfaces (b : bnd) (s : stresses) : stresses :=
  let s := if top b =? 1 then free_top s else s in
  let s := if rig b =? 1 then free_right s else s in
  let s := if bot b =? 1 then free_bottom s else s in
  if lef b =? 1 then free_left s else s.
End STRESS.
