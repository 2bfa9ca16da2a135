(** fdelmodc/readModel.c: the medium parameters of the finite-difference schemes from gridded velocities and densities.
    Numbers are real numbers.  The arrays cp, cs, ro hold the samples read from the files (nz per trace); cs is zero for
    the schemes that do not read it.  The loops of the source write several arrays; as no array is read for another one,
    except l2m for the zeroes of rox and roz, each array has its own function here. *)
From Coq Require Import ZArith Reals List Bool.
From Verif Require Import FdKernels Marchenko.
Import ListNotations.
Local Open Scope Z_scope.

(** getParameters.c:422-507 (without top=5): absorbing sides are 4 (tapered) and 2 (PML).
    The grid of FdKernels.v with both kinds of sides. *)
Definition absorbing (side : Z) : bool := (side =? 4) || (side =? 2).
Definition pad (b : bnd) (side : Z) : Z := if absorbing side then npml b else 0.
Definition layout (nx nz iorder : Z) (b : bnd) : FdKernels.grid :=
  let h := iorder / 2 in
  {| FdKernels.nx := nx; FdKernels.nz := nz; FdKernels.iorder := iorder;
     naz := nz + iorder + pad b (top b) + pad b (bot b); nax := nx + iorder + pad b (lef b) + pad b (rig b);
     ioXx := h + pad b (lef b); ioXz := h - 1 + pad b (top b); ieXx := nx + h + pad b (lef b); ieXz := nz + (h - 1) + pad b (top b);
     ioZx := h - 1 + pad b (lef b); ioZz := h + pad b (top b); ieZx := nx + (h - 1) + pad b (lef b); ieZz := nz + h + pad b (top b);
     ioPx := h - 1; ioPz := h - 1; iePx := nx + (h - 1) + pad b (lef b) + pad b (rig b); iePz := nz + (h - 1) + pad b (top b) + pad b (bot b);
     ioTx := h; ioTz := h; ieTx := nx + h + pad b (lef b) + pad b (rig b); ieTz := nz + h + pad b (top b) + pad b (bot b) |}.

Section LOOPS.
Variables (n1 nx nz : Z).
Definition set (ox oz ix iz : Z) (v : R) (m : Z -> R) : Z -> R := upd m ((ix + ox) * n1 + iz + oz) v.
(** readModel.c:232-349 (elastic), 432-491 (acoustic): bottom edge, right edge, corner, inner part *)
Definition fill (ox oz : Z) (bottom right corner inner : Z -> Z -> R) (m : Z -> R) : Z -> R :=
  let m := fold_left (fun m ix => set ox oz ix (nz - 1) (bottom ix (nz - 1)) m) (range 0 (nx - 1)) m in
  let m := fold_left (fun m iz => set ox oz (nx - 1) iz (right (nx - 1) iz) m) (range 0 (nz - 1)) m in
  let m := set ox oz (nx - 1) (nz - 1) (corner (nx - 1) (nz - 1)) m in
  fold_left (fun m ix => fold_left (fun m iz => set ox oz ix iz (inner ix iz) m) (range 0 (nz - 1)) m) (range 0 (nx - 1)) m.
(** the loops that copy a column xs, or a row zs, into a rectangle *)
Definition copy_col (x0 x1 z0 z1 xs : Z) (m : Z -> R) : Z -> R :=
  fold_left (fun m ix => fold_left (fun m iz => upd m (ix * n1 + iz) (m (xs * n1 + iz))) (range z0 z1) m) (range x0 x1) m.
Definition copy_row (x0 x1 z0 z1 zs : Z) (m : Z -> R) : Z -> R :=
  fold_left (fun m ix => fold_left (fun m iz => upd m (ix * n1 + iz) (m (ix * n1 + zs))) (range z0 z1) m) (range x0 x1) m.
(** readModel.c:495-502 *)
Definition clear (l2m : Z -> R) (px pz ox oz : Z) (m : Z -> R) : Z -> R :=
  fold_left (fun m ix => fold_left (fun m iz =>
    if Req_EM_T (l2m ((ix + px) * n1 + iz + pz)) 0 then set ox oz ix iz 0%R m else m) (range 0 nz) m) (range 0 nx) m.
End LOOPS.

Section READMODEL.
Variables (nx nz iorder : Z) (b : bnd) (fac : R) (cp cs ro : Z -> R).
Let g := layout nx nz iorder b.
Let n1 := naz g.
Let n := npml b.
(** readModel.c:48-76: first point of the model in the arrays *)
Definition startPx : Z := ioPx g + (if absorbing (lef b) then n else 0).
Definition startPz : Z := ioPz g + (if absorbing (top b) then n else 0).
Definition startTx : Z := ioTx g + (if absorbing (lef b) then n else 0).
Definition startTz : Z := ioTz g + (if absorbing (top b) then n else 0).

(** readModel.c:222-227; None: the program stops *)
Definition zero_density : bool := existsb (fun i => if Req_EM_T (ro i) 0 then true else false) (range 0 (nz * nx)).

(** readModel.c:258-260, 292, 310, 343, 441, 456, 470, 485: density for vx *)
Definition bx_mean (ix iz : Z) : R := (fac / (1 / 2 * (ro (ix * nz + iz)%Z + ro ((ix + 1) * nz + iz)%Z)))%R.
Definition b_here (ix iz : Z) : R := (fac / ro (ix * nz + iz)%Z)%R.
(** readModel.c:344 etc.: density for vz *)
Definition bz_mean (ix iz : Z) : R := (fac / (1 / 2 * (ro (ix * nz + iz)%Z + ro (ix * nz + iz + 1)%Z)))%R.
Definition lamda2mu (ix iz : Z) : R := (cp (ix * nz + iz)%Z * cp (ix * nz + iz)%Z * ro (ix * nz + iz)%Z)%R.
Definition mu_here (ix iz : Z) : R := (cs (ix * nz + iz)%Z * cs (ix * nz + iz)%Z * ro (ix * nz + iz)%Z)%R.
(** readModel.c:248-253, 281-286, 330-335: 4.0/(1.0/cs11+1.0/cs12+1.0/cs21+1.0/cs22).  One divided by zero is
    infinity in the floating-point arithmetic of the program, and four divided by infinity is zero. *)
Definition mul4 (cs11 cs12 cs21 cs22 : R) : R :=
  if Rlt_dec 0 cs11 then
    if Req_EM_T cs12 0 then 0%R else if Req_EM_T cs21 0 then 0%R else if Req_EM_T cs22 0 then 0%R
    else (4 / (1 / cs11 + 1 / cs12 + 1 / cs21 + 1 / cs22))%R
  else 0%R.
(** readModel.c:236-246 *)
Definition mul_bottom (ix iz : Z) : R :=
  let cs2 := (cs (ix * nz + iz)%Z * cs (ix * nz + iz)%Z)%R in
  let cs2a := (cs ((ix + 1) * nz + iz)%Z * cs ((ix + 1) * nz + iz)%Z)%R in
  mul4 (cs2 * ro (ix * nz + iz)%Z) (cs2 * ro (ix * nz + iz)%Z) (cs2a * ro ((ix + 1) * nz + iz)%Z) (cs2a * ro ((ix + 1) * nz + iz)%Z).
(** readModel.c:271-280 *)
Definition mul_right (ix iz : Z) : R :=
  let cs2 := (cs (ix * nz + iz)%Z * cs (ix * nz + iz)%Z)%R in
  let cs2b := (cs (ix * nz + iz + 1)%Z * cs (ix * nz + iz + 1)%Z)%R in
  mul4 (cs2 * ro (ix * nz + iz)%Z) (cs2b * ro (ix * nz + iz + 1)%Z) (cs2 * ro (ix * nz + iz)%Z) (cs2b * ro (ix * nz + iz + 1)%Z).
(** readModel.c:315-329: the densities of the traces ix+1 are taken from trace ix *)
Definition mul_inner (ix iz : Z) : R :=
  let cs2 := (cs (ix * nz + iz)%Z * cs (ix * nz + iz)%Z)%R in
  let cs2a := (cs ((ix + 1) * nz + iz)%Z * cs ((ix + 1) * nz + iz)%Z)%R in
  let cs2b := (cs (ix * nz + iz + 1)%Z * cs (ix * nz + iz + 1)%Z)%R in
  let cs2c := (cs ((ix + 1) * nz + iz + 1)%Z * cs ((ix + 1) * nz + iz + 1)%Z)%R in
  mul4 (cs2 * ro (ix * nz + iz)%Z) (cs2b * ro (ix * nz + iz + 1)%Z) (cs2a * ro (ix * nz + iz)%Z) (cs2c * ro (ix * nz + iz + 1)%Z).
(** readModel.c:257, 290, 301, 338 *)
Definition lamda (ix iz : Z) : R := (lamda2mu ix iz - 2 * mu_here ix iz)%R.

Definition fill_rox : (Z -> R) -> Z -> R := fill n1 nx nz (ioXx g) (ioXz g) bx_mean b_here b_here bx_mean.
Definition fill_roz : (Z -> R) -> Z -> R := fill n1 nx nz (ioZx g) (ioZz g) b_here bz_mean b_here bz_mean.
Definition fill_l2m : (Z -> R) -> Z -> R := let v := fun ix iz => (fac * lamda2mu ix iz)%R in fill n1 nx nz startPx startPz v v v v.
Definition fill_lam : (Z -> R) -> Z -> R := let v := fun ix iz => (fac * lamda ix iz)%R in fill n1 nx nz startPx startPz v v v v.
Definition fill_muu : (Z -> R) -> Z -> R :=
  fill n1 nx nz startTx startTz (fun ix iz => fac * mul_bottom ix iz)%R (fun ix iz => fac * mul_right ix iz)%R (fun ix iz => fac * mu_here ix iz)%R (fun ix iz => fac * mul_inner ix iz)%R.

Definition on (c : bool) (f : (Z -> R) -> Z -> R) (m : Z -> R) : Z -> R := if c then f m else m.
(** readModel.c:351-429, the elastic schemes with PML: nearest values into the PML zones.  All arrays have columns
    0..nax-1 and rows 0..n1-1.  xl, xr: the first and last column of the model used for the array, zt, zb the rows. *)
Definition pml (xl xr zt zb : Z) (m : Z -> R) : Z -> R :=
  let m := on (lef b =? 2) (copy_col n1 0 xl 0 n1 xl) m in
  let m := on (rig b =? 2) (copy_col n1 (xr + 1) (nax g) 0 n1 xr) m in
  let m := on (top b =? 2) (copy_row n1 0 (nax g) 0 startPz zt) m in
  on (bot b =? 2) (copy_row n1 0 (nax g) (zb + 1) n1 zb) m.
(** for rox and for roz the columns and rows of rox are used *)
Definition pml_v : (Z -> R) -> Z -> R := pml (ioXx g) (ioXx g + nx - 1) (ioXz g) (ioXz g + nz - 1).
Definition pml_p : (Z -> R) -> Z -> R := pml startPx (startPx + nx - 1) startPz (startPz + nz - 1).
Definition pml_t : (Z -> R) -> Z -> R := pml startTx (startTx + nx - 1) startTz (startTz + nz - 1).

(** readModel.c:508-872: extension into the absorbing sides, for rox and roz *)
Definition extend_v (xo xe zo ze : Z) (m : Z -> R) : Z -> R :=
  let m := on (absorbing (lef b)) (copy_col n1 (xo - n) xo zo ze xo) m in
  let m := on (absorbing (rig b)) (copy_col n1 xe (xe + n) zo ze (xe - 1)) m in
  let x0 := if absorbing (lef b) then xo - n else xo in
  let x1 := if absorbing (rig b) then xe + n else xe in
  let m := on (absorbing (top b)) (copy_row n1 x0 x1 (zo - n) zo zo) m in
  on (absorbing (bot b)) (copy_row n1 x0 x1 ze (ze + n) (ze - 1)) m.
(** the same for l2m, lam, muu, whose ranges include the sides *)
Definition extend_p (xo xe zo ze : Z) (m : Z -> R) : Z -> R :=
  let m := on (absorbing (lef b)) (copy_col n1 xo (xo + n) zo ze (xo + n)) m in
  let m := on (absorbing (rig b)) (copy_col n1 (xe - n) xe zo ze (xe - n - 1)) m in
  let m := on (absorbing (top b)) (copy_row n1 xo xe zo (zo + n) (zo + n)) m in
  on (absorbing (bot b)) (copy_row n1 xo xe (ze - n) ze (ze - n - 1)) m.

Record medium := mkMedium { m_rox : Z -> R; m_roz : Z -> R; m_l2m : Z -> R; m_lam : Z -> R; m_muu : Z -> R }.
(** readModel.c:31-931 without reading the files, the viscous parameters and top=5; elastic: ischeme>2 *)
Definition readModel (elastic : bool) (m : medium) : option medium :=
  if zero_density then None else
  let rox := fill_rox (m_rox m) in
  let roz := fill_roz (m_roz m) in
  let l2m := fill_l2m (m_l2m m) in
  let lam := on elastic fill_lam (m_lam m) in
  let muu := on elastic fill_muu (m_muu m) in
  let rox := on elastic pml_v rox in
  let roz := on elastic pml_v roz in
  let l2m := on elastic pml_p l2m in
  let lam := on elastic pml_p lam in
  let muu := on elastic pml_t muu in
  let rox := clear n1 nx nz l2m startPx startPz (ioXx g) (ioXz g) rox in
  let roz := clear n1 nx nz l2m startPx startPz (ioZx g) (ioZz g) roz in
  Some (mkMedium (extend_v (ioXx g) (ieXx g) (ioXz g) (ieXz g) rox)
                 (extend_v (ioZx g) (ieZx g) (ioZz g) (ieZz g) roz)
                 (extend_p (ioPx g) (iePx g) (ioPz g) (iePz g) l2m)
                 (on elastic (extend_p (ioPx g) (iePx g) (ioPz g) (iePz g)) lam)
                 (on elastic (extend_p (ioTx g) (ieTx g) (ioTz g) (ieTz g)) muu)).
End READMODEL.
