(** Sources of fdelmodc: amplitude in a time step and pattern on the grid. *)
From Coq Require Import ZArith Reals Bool.
Local Open Scope R_scope.

(** the wave fields *)
Inductive array := Avx | Avz | Atzz | Atxx | Atxz.

(** grid column and row of source number i out of n, for the shot at (shotx, shotz): placed one by one, on a line through
    the shot with given offsets, or next to each other around the shot *)
Definition column (placed line : bool) (n : nat) (shotx : Z) (x : nat -> Z) (i : nat) : Z :=
  if placed then x i else (if line then shotx + x i else shotx + Z.of_nat i - (Z.of_nat n - 1) / 2)%Z.
Definition row (placed line : bool) (shotz : Z) (z : nat -> Z) (i : nat) : Z :=
  if placed then z i else (if line then shotz + z i else shotz)%Z.

(** first point of the grid for a type of source, in a scheme with operators of half length [half]: horizontal forces are at
    the points of the horizontal velocity, vertical forces at those of the vertical velocity, shear-stress sources at those
    of the shear stress, and all others at those of the pressure; the absorbing layers (sides 2 and 4) come before it *)
Definition first_point (type half : Z) : Z * Z :=
  (match type with 6 => (half, half - 1) | 7 => (half - 1, half) | 2 => (half, half) | _ => (half - 1, half - 1) end)%Z.
Definition layer (side width : Z) : Z := if ((side =? 4) || (side =? 2))%Z then width else 0%Z.

(** linear interpolation of the samples w 0, w 1, ... at the sample number t *)
Definition interpolated (w : Z -> R) (t : R) : R :=
  w (Int_part t) * (1 - frac_part t) + w (Int_part t + 1)%Z * frac_part t.
(** weight of a source at distance d from the end of the array *)
Definition taper (w d : Z) : R := if (d <? w)%Z then (cos (PI / 2 * IZR (w - d) / IZR w)) ^ 2 else 1.

(** a pattern is a function of the position relative to the source *)
Definition pattern := Z -> Z -> R.
Definition none : pattern := fun _ _ => 0.
Definition unit_at (i k : Z) : pattern := fun x z => if ((x =? i) && (z =? k))%Z then 1 else 0.
Definition plus (a c : pattern) : pattern := fun x z => a x z + c x z.
Definition minus (a c : pattern) : pattern := fun x z => a x z - c x z.
Definition times (s : R) (a : pattern) : pattern := fun x z => s * a x z.
Definition shifted (i k : Z) (a : pattern) : pattern := fun x z => a (x - i)%Z (z - k)%Z.

(** orientation of compressional sources: monopole, dipole with the negative pole below, to the left, with the poles above
    and below (above: is there a point of the model above the source; below the same), with the negative pole to the right *)
Definition oriented (h : R) (above below : bool) (orient : Z) : pattern :=
  match orient with
  | 1%Z => unit_at 0 0
  | 2%Z => times (/ h) (minus (unit_at 0 0) (unit_at 0 1))
  | 3%Z => times (/ h) (minus (unit_at 0 0) (unit_at (-1) 0))
  | 4%Z => times (/ (2 * h)) (minus (if above then unit_at 0 (-1) else none) (if below then unit_at 0 1 else none))
  | 5%Z => times (/ h) (minus (unit_at 0 0) (unit_at 1 0))
  | _ => none
  end.
(** shear-stress source; at a free surface it is placed in the two points around it, one row higher *)
Definition shear (surface : bool) (orient : Z) : pattern :=
  let first := if surface then plus (unit_at (-1) (-1)) (unit_at 0 (-1)) else unit_at 0 0 in
  match orient with
  | 2%Z => minus first (unit_at 0 1)
  | 3%Z => minus first (unit_at (-1) 0)
  | 4%Z => plus (minus first (times 2 (unit_at 0 0))) (unit_at 0 1)
  | 5%Z => minus first (unit_at 1 0)
  | _ => first
  end.
(** first differences of a pattern, and those of fourth order; forward and backward *)
Definition dxf (a : pattern) : pattern := fun x z => a (x + 1)%Z z - a x z.
Definition dzf (a : pattern) : pattern := fun x z => a x (z + 1)%Z - a x z.
Definition dxb (a : pattern) : pattern := fun x z => a x z - a (x - 1)%Z z.
Definition dzb (a : pattern) : pattern := fun x z => a x z - a x (z - 1)%Z.
Definition dxf4 (a : pattern) : pattern := fun x z => 9 / 8 * (a (x + 1)%Z z - a x z) - 1 / 24 * (a (x + 2)%Z z - a (x - 1)%Z z).
Definition dzf4 (a : pattern) : pattern := fun x z => 9 / 8 * (a x (z + 1)%Z - a x z) - 1 / 24 * (a x (z + 2)%Z - a x (z - 1)%Z).
(** on the staggered grid: divergence of the velocities at the stress points, rotation at the shear-stress points *)
Definition divergence (vx vz : pattern) : pattern := plus (dxf vx) (dzf vz).
Definition divergence4 (vx vz : pattern) : pattern := plus (dxf4 vx) (dzf4 vz).
Definition rotation (vx vz : pattern) : pattern := minus (dzb vx) (dxb vz).

(** potential sources: a rotation around the source point, an expansion from it, and the rotation in fourth order; as
    (horizontal, vertical) velocities *)
Definition around : pattern * pattern :=
  (minus (unit_at 0 0) (unit_at 0 (-1)), minus (unit_at (-1) 0) (unit_at 0 0)).
Definition outwards : pattern * pattern :=
  (minus (unit_at 1 0) (unit_at 0 0), minus (unit_at 0 1) (unit_at 0 0)).
Definition around4 : pattern * pattern :=
  (minus (times (9 / 8) (minus (unit_at 0 0) (unit_at 0 (-1)))) (times (1 / 24) (minus (unit_at 0 1) (unit_at 0 (-2)))),
   minus (times (1 / 24) (minus (unit_at 1 0) (unit_at (-2) 0))) (times (9 / 8) (minus (unit_at 0 0) (unit_at (-1) 0)))).
(** dipoles of these: negative one below, or the negative one at the place itself and the positive one to the right *)
Definition dipole (orient : Z) (a : pattern) : pattern :=
  match orient with
  | 2%Z => minus a (shifted 0 1 a)
  | 3%Z => minus (shifted 1 0 a) a
  | _ => a
  end.

(** what a source of unit amplitude adds to a field; h grid distance, dt time step; bx, bz: dt/(density h) and k: stiffness
    times dt/h, at positions relative to the source *)
Record medium := mkMedium { bx : pattern; bz : pattern; k : pattern }.
Record moments := mkMoments { Mxx : R; Mzz : R; Mxz : R; wx : R; wz : R }.
Definition injected (elastic : bool) (type orient : Z) (surface above below : bool) (h dt : R) (m : medium) (o : moments)
    (f : array) : pattern :=
  let k0 := k m 0%Z 0%Z in let x0 := bx m 0%Z 0%Z in let z0 := bz m 0%Z 0%Z in
  match type, f, elastic with
  (* pressure *)
  | 1%Z, Atzz, _ | 1%Z, Atxx, true => times (k0 / h) (oriented h above below orient)
  (* stresses *)
  | 2%Z, Atxz, true => times (k0 / h) (shear surface orient)
  | 3%Z, Atzz, true => times (k0 / h) (unit_at 0 0)
  | 4%Z, Atxx, true => times (k0 / h) (unit_at 0 0)
  (* forces *)
  | 6%Z, Avx, _ => times (x0 / (2 * h)) (unit_at 0 0)
  | 7%Z, Avz, _ => times (z0 / h) (unit_at 0 0)
  | 10%Z, Atzz, _ => times (k0 * z0 / (2 * dt * h)) (minus (unit_at 0 1) (unit_at 0 (-1)))
  | 12%Z, Avx, _ => times (wx o / h) (plus (times x0 (unit_at 0 0)) (times (bx m 1%Z 0%Z * k0 / k m 1%Z 0%Z) (unit_at 1 0)))
  | 12%Z, Avz, _ => times (wz o / h) (plus (times z0 (unit_at 0 0)) (times (bz m 0%Z 1%Z * k0 / k m 0%Z 1%Z) (unit_at 0 1)))
  (* potentials *)
  | 5%Z, Avx, true => times (x0 / h ^ 2) (dipole orient (fst around))
  | 5%Z, Avz, true => times (x0 / h ^ 2) (dipole orient (snd around))
  | 8%Z, Avx, true => times (x0 / h ^ 2) (dipole orient (fst outwards))
  | 8%Z, Avz, true => times (x0 / h ^ 2) (dipole orient (snd outwards))
  | 13%Z, Avx, true => times (x0 / h ^ 2) (fst around4)
  | 13%Z, Avz, true => times (x0 / h ^ 2) (snd around4)
  (* double couple and moment tensor *)
  | 9%Z, Atxx, true | 11%Z, Atxx, true => times (- Mxx o * k0 / h) (unit_at 0 0)
  | 9%Z, Atzz, true | 11%Z, Atzz, true => times (- Mzz o * k0 / h) (unit_at 0 0)
  | 9%Z, Atxz, true | 11%Z, Atxz, true => times (- Mxz o * k0 / h) (unit_at 0 0)
  | _, _, _ => none
  end.
