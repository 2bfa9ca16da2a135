(** What the medium parameters of the finite-difference grids should be.  Cell (ix, iz) of the model has P velocity
    CP ix iz, S velocity CS ix iz and density RO ix iz. *)
From Coq Require Import ZArith Reals.
Local Open Scope R_scope.

(** the cell of an nx by nz model nearest to position a along one axis *)
Definition nearest (n a : Z) : Z := Z.max 0 (Z.min a (n - 1)).
Definition mean (x y : R) : R := (x + y) / 2.
(** harmonic mean of four numbers, zero when one of them is *)
Definition harmonic (a b c d : R) : R :=
  if Req_EM_T (a * b * c * d) 0 then 0 else 4 / (/ a + / b + / c + / d).
Section CELLS.
Variables (nx nz : Z) (CP CS RO : Z -> Z -> R).
Definition rigidity (ix iz : Z) : R := RO ix iz * (CS ix iz * CS ix iz).
(** velocity nodes lie half a cell to the right (vx) or below (vz); at the last cell the model continues.  Cells
    without velocity are air. *)
Definition buoyancy_x (ix iz : Z) : R := if Req_EM_T (CP ix iz) 0 then 0 else / mean (RO ix iz) (RO (nearest nx (ix + 1)) iz).
Definition buoyancy_z (ix iz : Z) : R := if Req_EM_T (CP ix iz) 0 then 0 else / mean (RO ix iz) (RO ix (nearest nz (iz + 1))).
Definition modulus (ix iz : Z) : R := RO ix iz * (CP ix iz * CP ix iz).
Definition lame (ix iz : Z) : R := modulus ix iz - 2 * rigidity ix iz.
(** the shear stress lies at the corner of four cells *)
Definition corner_rigidity (ix iz : Z) : R :=
  let r := nearest nx (ix + 1) in let d := nearest nz (iz + 1) in
  harmonic (rigidity ix iz) (rigidity ix d) (rigidity r iz) (rigidity r d).
(** ... as fdelmodc has it, with the densities of the right cells taken from the left ones, except in the bottom row *)
Definition corner_rigidity' (ix iz : Z) : R :=
  let r := nearest nx (ix + 1) in let d := nearest nz (iz + 1) in
  let RO' := fun x z => RO (if Z.eqb iz (nz - 1) then x else ix) z in
  let mu := fun x z => RO' x z * (CS x z * CS x z) in
  harmonic (mu ix iz) (mu ix d) (mu r iz) (mu r d).
End CELLS.
