(** fdelmodc/boundaries.c: perfectly matched layers (sides of kind 2) of the acoustic fourth-order scheme (ischeme 1).
    Numbers are real numbers.  The arrays are functions of the address ix*n1+iz.  The parallel loops are run in order: no
    iteration reads what another one writes.  The arrays psi_vx_z, psi_vz_x, psi_txz_x and psi_txz_z and the coefficients
    of the shear stress, which the acoustic scheme does not use, are not modelled. *)
From Coq Require Import ZArith Reals List Bool.
From Verif Require Import FdKernels Marchenko ReadModel.
Import ListNotations.
Local Open Scope Z_scope.

(** the parameters of the layers: bnd.m, bnd.R, mod.cp_min, mod.dx, mod.dt (npml in bnd) *)
Record pml := mkPml { p_m : R; p_R : R; p_cp : R; p_dx : R; p_dt : R }.
(** b, c and ik of one direction, for cells (xc, zc) or faces (xf, zf) *)
Record coefs := mkCoefs { cb : Z -> R; cc : Z -> R; cik : Z -> R }.
Section LAYERS.
Variables (g : FdKernels.grid) (b : bnd) (w : pml).
Let n := npml b.
Let n1 := naz g.
Let n2 := nax g.
(** boundaries.c:157-162, 1265-1270 *)
Definition m_cpml : R := if Rlt_dec 0 (p_m w) then p_m w else 2%R.
Definition R_cpml : R := if Rlt_dec 0 (p_R w) then p_R w else (/ 100000)%R.
Definition kmax : R := 5%R.
Definition amax : R := 0%R.
Definition L_pml : R := (IZR n * p_dx w)%R.
Definition sigma_max : R := ((m_cpml + 1) * p_cp w / (2 * L_pml) * ln (1 / R_cpml))%R.
(** boundaries.c:171-180: b, c and ik at the fraction xi of the layer; pow for a positive base *)
Definition layer_coef (xi : R) : R * R * R :=
  let xi := if Rlt_dec 1 xi then 1%R else xi in
  let sig := (sigma_max * Rpower xi m_cpml)%R in
  let kap := (1 + (kmax - 1) * Rpower xi m_cpml)%R in
  let alp := (amax * (1 - xi))%R in
  let sak := (sig + kap * alp)%R in
  let eb := exp (- (sig / kap + alp) * p_dt w) in
  let c := if Rlt_dec (/ 10 ^ 30) sak then (sig / (kap * sak) * (eb - 1))%R else 0%R in
  (eb, c, (1 / kap)%R).
(** boundaries.c:165-166 *)
Definition no_layer : coefs := mkCoefs (fun _ => 0%R) (fun _ => 0%R) (fun _ => 1%R).
(** for (i=lo; i<hi; i++) ... *)
Definition set_coefs (lo hi : Z) (xi : Z -> R) (k : coefs) : coefs :=
  fold_left (fun k i => let '(eb, c, ik) := layer_coef (xi i) in mkCoefs (upd (cb k) i eb) (upd (cc k) i c) (upd (cik k) i ik)) (range lo hi) k.
(** boundaries.c:169-196 *)
Definition faces_x : coefs :=
  let k := no_layer in
  let k := if lef b =? 2 then set_coefs (Z.max (ioXx g - n) 0) (Z.min (ioXx g) n2) (fun ix => IZR (ioXx g - ix) / IZR n)%R k else k in
  if rig b =? 2 then set_coefs (Z.max (ieXx g) 0) (Z.min (ieXx g + n) n2) (fun ix => IZR (ix - ieXx g + 1) / IZR n)%R k else k.
(** boundaries.c:198-225 *)
Definition faces_z : coefs :=
  let k := no_layer in
  let k := if top b =? 2 then set_coefs (Z.max (ioZz g - n) 0) (Z.min (ioZz g) n1) (fun iz => IZR (ioZz g - iz) / IZR n)%R k else k in
  if bot b =? 2 then set_coefs (Z.max (ieZz g) 0) (Z.min (ieZz g + n) n1) (fun iz => IZR (iz - ieZz g + 1) / IZR n)%R k else k.
(** boundaries.c:1280-1301, 1319-1331; xi < 0 is set to 0 *)
Definition not_negative (xi : R) : R := if Rlt_dec xi 0 then 0%R else xi.
Definition centres_x : coefs :=
  let k := no_layer in
  let r := iePx g - n in
  let k := if lef b =? 2 then set_coefs (ioPx g) (ioXx g) (fun ix => not_negative ((IZR (ioXx g - ix) - / 2) / IZR n))%R k else k in
  if rig b =? 2 then set_coefs r (Z.min (r + n) n2) (fun ix => (IZR (ix - r) + / 2) / IZR n)%R k else k.
(** boundaries.c:1347-1361, 1378-1390 *)
Definition centres_z : coefs :=
  let k := no_layer in
  let r := ioPz g + n + 1 in
  let k := if top b =? 2 then set_coefs (ioPz g) r (fun iz => not_negative ((IZR (r - iz) - / 2) / IZR n))%R k else k in
  if bot b =? 2 then set_coefs (ieXz g) (Z.min (ieXz g + n) n1) (fun iz => (IZR (iz - ieXz g) + / 2) / IZR n)%R k else k.

(** boundaries.c:248-280 (vx), 282-330 (vz): the points that are visited, with o and e the start and end of the grid
    of vx or vz; the masks in_x *)
Definition mask (first last : bool) (o e i : Z) : bool := (first && (i <? o)) || (last && (e <=? i)).
Definition in_x (ox ex ix : Z) : bool := mask (lef b =? 2) (rig b =? 2) ox ex ix.
Definition in_z (oz ez iz : Z) : bool := mask (top b =? 2) (bot b =? 2) oz ez iz.
Definition rows (ox ex oz ez ix : Z) : list Z :=
  let zmin := Z.max (oz - n) 0 in
  let zmax := Z.min (ez + n) n1 in
  if in_x ox ex ix then range zmin zmax
  else (if top b =? 2 then range zmin oz else []) ++ (if bot b =? 2 then range ez zmax else []).
Definition cells (ox ex oz ez : Z) : list (Z * Z) :=
  flat_map (fun ix => map (pair ix) (rows ox ex oz ez ix)) (range (Z.max (ox - n) 0) (Z.min (ex + n) n2)).
Definition vx_cells : list (Z * Z) := cells (ioXx g) (ieXx g) (ioXz g) (ieXz g).
Definition vz_cells : list (Z * Z) := cells (ioZx g) (ieZx g) (ioZz g) (ieZz g).

Definition c1 : R := (9 / 8)%R.
Definition c2 : R := (- 1 / 24)%R.
(** one step of a memory variable and of a field: psi = b psi + c d, d = ik d + psi, f -= ro d *)
Definition damped (k : coefs) (j : Z) (d : R) (a : Z) (psi : Z -> R) : R * (Z -> R) :=
  let v := (cb k j * psi a + cc k j * d)%R in ((cik k j * d + v)%R, upd psi a v).
(** boundaries.c:254-280 *)
Definition vx_point (p rox : Z -> R) (s : (Z -> R) * (Z -> R)) (c : Z * Z) : (Z -> R) * (Z -> R) :=
  let '(ix, iz) := c in
  let i := ix * n1 + iz in
  let dpx := (c1 * (p i - p (i - n1)%Z) + c2 * (p (i + n1)%Z - p (i - 2 * n1)%Z))%R in
  let '(dpx, psi) := if in_x (ioXx g) (ieXx g) ix then damped faces_x ix dpx i (snd s) else (dpx, snd s) in
  (upd (fst s) i (fst s i - rox i * dpx)%R, psi).
(** boundaries.c:289-328; the loops over the rows of the top and the bottom layer are inside the mask in_z *)
Definition vz_point (p roz : Z -> R) (s : (Z -> R) * (Z -> R)) (c : Z * Z) : (Z -> R) * (Z -> R) :=
  let '(ix, iz) := c in
  let i := ix * n1 + iz in
  let dpz := (c1 * (p i - p (i - 1)%Z) + c2 * (p (i + 1)%Z - p (i - 2)%Z))%R in
  let '(dpz, psi) := if in_z (ioZz g) (ieZz g) iz then damped faces_z iz dpz i (snd s) else (dpz, snd s) in
  (upd (fst s) i (fst s i - roz i * dpz)%R, psi).
(** what the points read of p *)
Definition vx_reads (c : Z * Z) : list Z := let i := fst c * n1 + snd c in [i; i - n1; i + n1; i - 2 * n1].
Definition vz_reads (c : Z * Z) : list Z := let i := fst c * n1 + snd c in [i; i - 1; i + 1; i - 2].
(** boundaries.c:332-351, 1470-1485: copies into the first two columns and rows *)
Definition ghosts (f : Z -> R) : Z -> R :=
  let f := if lef b =? 2 then fold_left (fun f iz => let f := upd f (1 * n1 + iz) (f (2 * n1 + iz)) in upd f (0 * n1 + iz) (f (2 * n1 + iz))) (range 0 n1) f else f in
  if top b =? 2 then fold_left (fun f ix => let f := upd f (ix * n1 + 1) (f (ix * n1 + 2)) in upd f (ix * n1 + 0) (f (ix * n1 + 2))) (range 0 n2) f else f.
(** memory variables: psi_vx_x, psi_vz_z, or psi_p_x, psi_p_z; boundaries.c:237-246, 1405-1414 *)
Definition fresh (itime : nat) (psi : (Z -> R) * (Z -> R)) : (Z -> R) * (Z -> R) :=
  match itime with O => (fun _ => 0%R, fun _ => 0%R) | _ => psi end.
(** boundaries.c:234-353: vx, vz and the memory after boundariesP *)
Definition layersP (rox roz : Z -> R) (itime : nat) (p vx vz : Z -> R) (psi : (Z -> R) * (Z -> R)) : (Z -> R) * (Z -> R) * ((Z -> R) * (Z -> R)) :=
  let psi := fresh itime psi in
  let x := fold_left (vx_point p rox) vx_cells (vx, fst psi) in
  let z := fold_left (vz_point p roz) vz_cells (vz, snd psi) in
  (ghosts (fst x), ghosts (fst z), (snd x, snd z)).

(** boundaries.c:1416-1419 *)
Definition pox : Z := if lef b =? 2 then ioPx g + n else ioPx g.
Definition pex : Z := if rig b =? 2 then iePx g - n else iePx g.
Definition poz : Z := if top b =? 2 then ioPz g + n else ioPz g.
Definition pez : Z := if bot b =? 2 then iePz g - n else iePz g.
(** boundaries.c:1423-1433 *)
Definition p_cells : list (Z * Z) :=
  flat_map (fun ix =>
    let zlo := if top b =? 2 then Z.max (poz - n) 0 else poz in
    let zhi := if bot b =? 2 then Z.min (pez + n) n1 else pez in
    map (pair ix) (filter (fun iz => in_x pox pex ix || in_z poz pez iz) (range zlo zhi))) (range (Z.max (pox - n) 0) (Z.min (pex + n) n2)).
(** boundaries.c:1435-1452 *)
Definition dvx (vx : Z -> R) (ix iz : Z) : R :=
  if (1 <=? ix) && (ix <=? n2 - 3) then
    (c1 * (vx ((ix + 1) * n1 + iz)%Z - vx (ix * n1 + iz)%Z) + c2 * (vx ((ix + 2) * n1 + iz)%Z - vx ((ix - 1) * n1 + iz)%Z))%R
  else
    let ixm1 := if 0 <? ix then ix - 1 else ix in
    let ixp1 := if ix + 1 <? n2 then ix + 1 else ix in
    (vx (ixp1 * n1 + iz)%Z - vx (ixm1 * n1 + iz)%Z)%R.
Definition dvz (vz : Z -> R) (ix iz : Z) : R :=
  if (1 <=? iz) && (iz <=? n1 - 3) then
    (c1 * (vz (ix * n1 + iz + 1)%Z - vz (ix * n1 + iz)%Z) + c2 * (vz (ix * n1 + iz + 2)%Z - vz (ix * n1 + iz - 1)%Z))%R
  else
    let izm1 := if 0 <? iz then iz - 1 else iz in
    let izp1 := if iz + 1 <? n1 then iz + 1 else iz in
    (vz (ix * n1 + izp1)%Z - vz (ix * n1 + izm1)%Z)%R.
(** what these derivatives read of vx and of vz *)
Definition dvx_reads (c : Z * Z) : list Z :=
  let '(ix, iz) := c in
  if (1 <=? ix) && (ix <=? n2 - 3) then [(ix + 1) * n1 + iz; ix * n1 + iz; (ix + 2) * n1 + iz; (ix - 1) * n1 + iz]
  else [(if ix + 1 <? n2 then ix + 1 else ix) * n1 + iz; (if 0 <? ix then ix - 1 else ix) * n1 + iz].
Definition dvz_reads (c : Z * Z) : list Z :=
  let '(ix, iz) := c in
  if (1 <=? iz) && (iz <=? n1 - 3) then [ix * n1 + iz + 1; ix * n1 + iz; ix * n1 + iz + 2; ix * n1 + iz - 1]
  else [ix * n1 + (if iz + 1 <? n1 then iz + 1 else iz); ix * n1 + (if 0 <? iz then iz - 1 else iz)].
(** boundaries.c:1454-1463 *)
Definition p_point (vx vz l2m : Z -> R) (s : (Z -> R) * ((Z -> R) * (Z -> R))) (c : Z * Z) : (Z -> R) * ((Z -> R) * (Z -> R)) :=
  let '(ix, iz) := c in
  let i := ix * n1 + iz in
  let '(dx, psix) := if in_x pox pex ix then damped centres_x ix (dvx vx ix iz) i (fst (snd s)) else (dvx vx ix iz, fst (snd s)) in
  let '(dz, psiz) := if in_z poz pez iz then damped centres_z iz (dvz vz ix iz) i (snd (snd s)) else (dvz vz ix iz, snd (snd s)) in
  (upd (fst s) i (fst s i - l2m i * (dx + dz))%R, (psix, psiz)).
(** boundaries.c:1402-1492: p and the memory after boundariesV *)
Definition layersV (l2m : Z -> R) (itime : nat) (vx vz p : Z -> R) (psi : (Z -> R) * (Z -> R)) : (Z -> R) * ((Z -> R) * (Z -> R)) :=
  let r := fold_left (p_point vx vz l2m) p_cells (p, fresh itime psi) in
  (ghosts (fst r), snd r).

(** The memory variables are static arrays that only these functions write.  The calls of one shot: at call k the fields
    are p k, vx k, vz k; left: the contents of the arrays after the shot before *)
Fixpoint memoryP (rox roz : Z -> R) (p vx vz : nat -> Z -> R) (left : (Z -> R) * (Z -> R)) (k : nat) : (Z -> R) * (Z -> R) :=
  match k with O => left | S j => snd (layersP rox roz j (p j) (vx j) (vz j) (memoryP rox roz p vx vz left j)) end.
Definition callP (rox roz : Z -> R) (p vx vz : nat -> Z -> R) (left : (Z -> R) * (Z -> R)) (k : nat) : (Z -> R) * (Z -> R) :=
  fst (layersP rox roz k (p k) (vx k) (vz k) (memoryP rox roz p vx vz left k)).
Fixpoint memoryV (l2m : Z -> R) (vx vz p : nat -> Z -> R) (left : (Z -> R) * (Z -> R)) (k : nat) : (Z -> R) * (Z -> R) :=
  match k with O => left | S j => snd (layersV l2m j (vx j) (vz j) (p j) (memoryV l2m vx vz p left j)) end.
Definition callV (l2m : Z -> R) (vx vz p : nat -> Z -> R) (left : (Z -> R) * (Z -> R)) (k : nat) : Z -> R :=
  fst (layersV l2m k (vx k) (vz k) (p k) (memoryV l2m vx vz p left k)).
End LAYERS.
