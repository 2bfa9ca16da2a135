(** fdelmodc: the visco-acoustic and visco-elastic schemes.  Relaxation times of readModel.c and the updates of the
    stresses and memory variables in viscoacoustic4.c and viscoelastic4.c.  Numbers are real numbers.
    Not modelled: the update of the velocities, which is as in the other schemes, and the boundary conditions; the
    velocities of every step are arbitrary. *)
From Coq Require Import ZArith Reals List Bool.
From Verif Require Import FdKernels Marchenko ReadModel.
Import ListNotations.
Local Open Scope Z_scope.

(** ** relaxation times *)
(** readModel.c:152-153, 165-166: a and b *)
Definition tau_sigma (Q w : R) : R := ((sqrt (1 + 1 / (Q * Q)) - 1 / Q) / w)%R.
Definition tau_epsilon (w a : R) : R := (1 / (w * w * a))%R.
(** readModel.c:184, 191 *)
Definition tau_epsilon_s (Q w a : R) : R := ((1 + w * Q * a) / (w * Q - w * w * a))%R.
(** readModel.c:151 *)
Definition angular (f : R) : R := (2 * PI * f)%R.

Section RELAX.
Variables (nx nz iorder : Z) (b : bnd) (nfw : Z) (fw : Z -> R).
(** the quality factors of the cells, from the files or the same for all cells *)
Variables (qp qs : Z -> Z -> R).
Let g := layout nx nz iorder b.
Let n1 := naz g.
Let px := startPx nx nz iorder b.
Let pz := startPz nx nz iorder b.
(** the index of tss, tep and q: readModel.c:156 *)
Definition cell3 (x z k : Z) : Z := x * n1 * nfw + z * nfw + k.
(** for (imech=0; imech<nfw; imech++) tss[...] = v *)
Definition mechs (x z : Z) (v : Z -> (Z -> R) -> R) (m : Z -> R) : Z -> R :=
  fold_left (fun m k => upd m (cell3 x z k) (v k m)) (range 0 nfw) m.
Definition tss_value (i iz k : Z) : R := (1 / tau_sigma (qp i iz) (angular (fw k)))%R.
Definition tep_value (i iz k : Z) : R := tau_epsilon (angular (fw k)) (tau_sigma (qp i iz) (angular (fw k))).
(** readModel.c:144-172, one trace *)
Definition trace_tss (i : Z) (m : Z -> R) : Z -> R := fold_left (fun m iz => mechs (i + px) (iz + pz) (fun k _ => tss_value i iz k) m) (range 0 nz) m.
Definition trace_tep (i : Z) (m : Z -> R) : Z -> R := fold_left (fun m iz => mechs (i + px) (iz + pz) (fun k _ => tep_value i iz k) m) (range 0 nz) m.
(** readModel.c:176-193: the index has no nfw *)
Definition trace_tes (tss : Z -> R) (i : Z) (m : Z -> R) : Z -> R :=
  fold_left (fun m iz => upd m ((i + px) * n1 + iz + pz) (tau_epsilon_s (qs i iz) (angular (fw 0)) (1 / tss ((i + px) * n1 + iz + pz)%Z)%R)) (range 0 nz) m.
Record times := mkTimes { t_tss : Z -> R; t_tep : Z -> R; t_tes : Z -> R }.
Definition traces (elastic : bool) (t : times) : times :=
  fold_left (fun t i => let tss := trace_tss i (t_tss t) in
    mkTimes tss (trace_tep i (t_tep t)) (if elastic then trace_tes tss i (t_tes t) else t_tes t)) (range 0 nx) t.
(** readModel.c:570-586, 659-675, 753-769, 847-863: the sides, for tss and tep *)
Definition vcopy_col (x0 x1 z0 z1 xs : Z) (m : Z -> R) : Z -> R :=
  fold_left (fun m ix => fold_left (fun m iz => mechs ix iz (fun k m => m (cell3 xs iz k)) m) (range z0 z1) m) (range x0 x1) m.
Definition vcopy_row (x0 x1 z0 z1 zs : Z) (m : Z -> R) : Z -> R :=
  fold_left (fun m ix => fold_left (fun m iz => mechs ix iz (fun k m => m (cell3 ix zs k)) m) (range z0 z1) m) (range x0 x1) m.
Definition vextend (m : Z -> R) : Z -> R :=
  let n := npml b in
  let m := on (absorbing (lef b)) (vcopy_col (ioPx g) (ioPx g + n) (ioPz g) (iePz g) (ioPx g + n)) m in
  let m := on (absorbing (rig b)) (vcopy_col (iePx g - n) (iePx g) (ioPz g) (iePz g) (iePx g - n - 1)) m in
  let m := on (absorbing (top b)) (vcopy_row (ioPx g) (iePx g) (ioPz g) (ioPz g + n) (ioPz g + n)) m in
  on (absorbing (bot b)) (vcopy_row (ioPx g) (iePx g) (iePz g - n) (iePz g) (iePz g - n - 1)) m.
(** all of it; tes has the loops of l2m (587-598 etc.) *)
Definition relaxation_times (elastic : bool) (t : times) : times :=
  let t := traces elastic t in
  mkTimes (vextend (t_tss t)) (vextend (t_tep t))
    (on elastic (extend_p nx nz iorder b (ioPx g) (iePx g) (ioPz g) (iePz g)) (t_tes t)).
End RELAX.

(** ** updates *)
Section KERNELS.
Variables (g : FdKernels.grid) (dt : R).
Let n1 := naz g.
Definition c1 : R := (9 / 8)%R.
Definition c2 : R := (- 1 / 24)%R.
(** viscoacoustic4.c:147-155, viscoelastic4.c:155-164: derivatives at the pressure points *)
Definition dxvx (vx : Z -> R) (ix iz : Z) : R :=
  (c1 * (vx ((ix + 1) * n1 + iz)%Z - vx (ix * n1 + iz)%Z) + c2 * (vx ((ix + 2) * n1 + iz)%Z - vx ((ix - 1) * n1 + iz)%Z))%R.
Definition dzvz (vz : Z -> R) (ix iz : Z) : R :=
  (c1 * (vz (ix * n1 + iz + 1)%Z - vz (ix * n1 + iz)%Z) + c2 * (vz (ix * n1 + iz + 2)%Z - vz (ix * n1 + iz - 1)%Z))%R.
(** viscoelastic4.c:197-205: at the shear points *)
Definition dzvx (vx : Z -> R) (ix iz : Z) : R :=
  (c1 * (vx (ix * n1 + iz)%Z - vx (ix * n1 + iz - 1)%Z) + c2 * (vx (ix * n1 + iz + 1)%Z - vx (ix * n1 + iz - 2)%Z))%R.
Definition dxvz (vz : Z -> R) (ix iz : Z) : R :=
  (c1 * (vz (ix * n1 + iz)%Z - vz ((ix - 1) * n1 + iz)%Z) + c2 * (vz ((ix + 1) * n1 + iz)%Z - vz ((ix - 2) * n1 + iz)%Z))%R.

(** getParameters.c:208, 217 *)
Definition weight (k : Z) : R := 1%R.
(** viscoacoustic4.c:167-187: one mechanism at one point *)
Definition mech (l2m div s e w : R) (pq : R * R) : R * R :=
  let Tpp := (s * e)%R in
  let p := (fst pq - (l2m * Tpp * div + w * snd pq))%R in
  let Tlm := ((1 - Tpp) * s * l2m)%R in
  let nom := (1 / (1 + / 2 * s * dt))%R in
  let q := (nom * (snd pq * (1 - / 2 * s * dt) + / 2 * Tlm * div * dt))%R in
  ((p - w * q)%R, q).
Section ACOUSTIC.
Variables (nfw : Z) (l2m tss tep : Z -> R).
Definition point (vx vz : Z -> R) (ix iz : Z) (pq : (Z -> R) * (Z -> R)) : (Z -> R) * (Z -> R) :=
  let i := ix * n1 + iz in
  let idx := ix * n1 * nfw + iz * nfw in
  let div := (dxvx vx ix iz + dzvz vz ix iz)%R in
  fold_left (fun pq k => let r := mech (l2m i) div (tss (k + idx)) (tep (k + idx)) (weight k) (fst pq i, snd pq (k + idx)) in
    (upd (fst pq) i (fst r), upd (snd pq) (k + idx) (snd r))) (range 0 nfw) pq.
(** viscoacoustic4.c:145-190 *)
Definition viscoacoustic (vx vz : Z -> R) (pq : (Z -> R) * (Z -> R)) : (Z -> R) * (Z -> R) :=
  fold_left (fun pq ix => fold_left (fun pq iz => point vx vz ix iz pq) (range (ioPz g) (iePz g)) pq) (range (ioPx g) (iePx g)) pq.
(** all steps; source: what applySource adds to the pressure after the update *)
Fixpoint acoustic_run (vx vz source : nat -> Z -> R) (n : nat) (pq : (Z -> R) * (Z -> R)) : (Z -> R) * (Z -> R) :=
  match n with
  | O => pq
  | S m => let r := viscoacoustic (vx m) (vz m) (acoustic_run vx vz source m pq) in ((fun i => fst r i + source m i)%R, snd r)
  end.
End ACOUSTIC.

Section ELASTIC.
Variables (l2m mul tss tep tes : Z -> R).
(** for (iz=z0; iz<z1; iz++) a[iz] = f iz *)
Definition column (z0 z1 : Z) (f : Z -> R) (m : Z -> R) : Z -> R := fold_left (fun m iz => upd m iz (f iz)) (range z0 z1) m.
(** the temporary arrays that are used beyond the points where they are set: allocated in each step *)
Record temps := mkTemps { Tus : Z -> R; Tmu : Z -> R; Tt1 : Z -> R; Tt2 : Z -> R }.
Definition tpp (i : Z) : R := (tep i * tss i)%R.
Definition tst (i : Z) : R := (tes i * tss i)%R.
Definition tmu (i : Z) : R := ((1 - tst i) * tss i * mul i)%R.
Definition tlm (i : Z) : R := ((1 - tpp i) * tss i * l2m i * / 2)%R.
Definition tlp (i : Z) : R := (l2m i * tpp i)%R.
(** viscoelastic4.c:166-179 *)
Definition set_temps (ix : Z) (t : temps) : temps :=
  mkTemps (column (ioPz g) (iePz g) (fun iz => mul (ix * n1 + iz) * tst (ix * n1 + iz))%R (Tus t))
          (column (ioPz g) (iePz g) (fun iz => tmu (ix * n1 + iz)) (Tmu t))
          (column (ioPz g) (iePz g) (fun iz => 1 / (1 / dt + / 2 * tss (ix * n1 + iz)))%R (Tt1 t))
          (column (ioPz g) (iePz g) (fun iz => 1 / dt - / 2 * tss (ix * n1 + iz))%R (Tt2 t)).
(** viscoelastic4.c:182-192 for txx and q with d1 = dxvx and d2 = dzvz, for tzz and p the other way around *)
Definition normal (t : temps) (ix : Z) (d1 d2 : Z -> R) (sm : (Z -> R) * (Z -> R)) : (Z -> R) * (Z -> R) :=
  let s := fold_left (fun s iz => let i := ix * n1 + iz in
    upd s i (s i - (tlp i * d1 iz + (tlp i - 2 * Tus t iz) * d2 iz + snd sm i))%R) (range (ioPz g) (iePz g)) (fst sm) in
  fold_left (fun sm iz => let i := ix * n1 + iz in
    let m := upd (snd sm) i ((Tt2 t iz * snd sm i - Tmu t iz * d2 iz + tlm i * (d1 iz + d2 iz)) * Tt1 t iz)%R in
    (upd (fst sm) i (fst sm i - m i)%R, m)) (range (ioPz g) (iePz g)) (s, snd sm).
(** viscoelastic4.c:195-212 *)
Definition shear (t : temps) (ix : Z) (d : Z -> R) (sm : (Z -> R) * (Z -> R)) : (Z -> R) * (Z -> R) :=
  if ioTx g <=? ix then
    fold_left (fun sm iz => let i := ix * n1 + iz in
      let s := (fst sm i - (Tus t iz * d iz + snd sm i))%R in
      let m := upd (snd sm) i ((Tt2 t iz * snd sm i + / 2 * Tmu t iz * d iz) * Tt1 t iz)%R in
      (upd (fst sm) i (s - m i)%R, m)) (range (ioTz g) (ieTz g)) sm
  else sm.
(** txx with q, tzz with p, txz with r *)
Record stresses := mkStresses { xx : (Z -> R) * (Z -> R); zz : (Z -> R) * (Z -> R); xz : (Z -> R) * (Z -> R) }.
(** viscoelastic4.c:151-213; junk: the contents of the temporary arrays when they are allocated *)
Definition viscoelastic (junk : temps) (vx vz : Z -> R) (s : stresses) : stresses :=
  fst (fold_left (fun st ix =>
    let t := set_temps ix (snd st) in let s := fst st in
    (mkStresses (normal t ix (dxvx vx ix) (dzvz vz ix) (xx s)) (normal t ix (dzvz vz ix) (dxvx vx ix) (zz s))
                (shear t ix (fun iz => dzvx vx ix iz + dxvz vz ix iz)%R (xz s)), t)) (range (ioPx g) (iePx g)) (s, junk)).
(** all steps; sources are added to the stresses *)
Fixpoint elastic_run (junk : nat -> temps) (vx vz sxx szz sxz : nat -> Z -> R) (n : nat) (s : stresses) : stresses :=
  match n with
  | O => s
  | S m => let r := viscoelastic (junk m) (vx m) (vz m) (elastic_run junk vx vz sxx szz sxz m s) in
    mkStresses ((fun i => fst (xx r) i + sxx m i)%R, snd (xx r)) ((fun i => fst (zz r) i + szz m i)%R, snd (zz r)) ((fun i => fst (xz r) i + sxz m i)%R, snd (xz r))
  end.
End ELASTIC.
End KERNELS.
