(** Perfectly matched layers of the acoustic scheme of fdelmodc: what a layer does to a spatial derivative.
    In a layer a derivative d(t) is replaced by (d - (1 - b) * (sum of the earlier and present derivatives, faded with b per step)) / kap. *)
From Coq Require Import ZArith Reals Bool.
From Verif Require Import ViscoSpec.
Local Open Scope R_scope.

(** the exponent of the damping profile and the wanted reflection coefficient; values that are not positive are replaced *)
Definition exponent (m : R) : R := if Rlt_dec 0 m then m else 2.
Definition reflection (r : R) : R := if Rlt_dec 0 r then r else / 100000.
(** the damping at the end of a layer of length L for the speed c *)
Definition max_damping (m r c L : R) : R := (exponent m + 1) * c / (2 * L) * ln (1 / reflection r).
(** damping, stretch and fading per step at the fraction xi of a layer (xi > 0, at most 1) *)
Definition damping (m r c L xi : R) : R := max_damping m r c L * Rpower (Rmin 1 xi) (exponent m).
Definition stretch (m xi : R) : R := 1 + 4 * Rpower (Rmin 1 xi) (exponent m).
Definition fading (sig kap dt : R) : R := exp (- (sig / kap) * dt).
(** the derivative of step n in a layer, from the derivatives of steps 0 ... n *)
Definition stretched (kap b : R) (d : nat -> R) (n : nat) : R := (d n - (1 - b) * upto (S n) (fun k => b ^ (n - k) * d k)) / kap.
(** damping of at most 10^-30 is none *)
Definition layer_derivative (m r c L dt xi : R) (d : nat -> R) (n : nat) : R :=
  let sig := damping m r c L xi in let kap := stretch m xi in
  if Rlt_dec (/ 10 ^ 30) sig then stretched kap (fading sig kap dt) d n else d n / kap.
(** derivative of velocities at the pressure points; at the edges of an array of n a central difference *)
Definition ahead_edge (n : Z) (f : Z -> R) (x : Z) : R :=
  if ((1 <=? x) && (x <=? n - 3))%Z then ahead f x else f (Z.min (n - 1) (x + 1)) - f (Z.max 0 (x - 1)).
(** the first two points of a side with a layer hold the value of the third *)
Definition inner (layer : bool) (x : Z) : Z := if layer then Z.max 2 x else x.

(** One direction of a grid whose points inside the model are o ... e-1, with sides of the given kinds (2: a layer of n points) *)
Definition beyond (first last n o e i : Z) : bool :=
  (((first =? 2) && (o - n <=? i) && (i <? o)) || ((last =? 2) && (e <=? i) && (i <? e + n)))%Z.
(** the points of an array that are at most n points away from the model *)
Definition reach (size n o e i : Z) : bool := ((Z.max 0 (o - n) <=? i) && (i <? Z.min size (e + n)))%Z.
(** the fraction of the layer at a point, for velocities and for pressures *)
Definition at_face (n o e i : Z) : R := (if (i <? o)%Z then IZR (o - i) else IZR (i - e + 1)) / IZR n.
Definition at_centre (n o e i : Z) : R := (if (i <? o)%Z then IZR (o - i) + 1 / 2 else IZR (i - e) + 1 / 2) / IZR n.
(** The points that the layers of a grid change: kinds of the sides left, right, top, bottom; n2 columns of n1 points;
    the model is ox ... ex-1 by oz ... ez-1 *)
Definition touched (l r t u n n1 n2 ox ex oz ez x z : Z) : bool :=
  reach n2 n ox ex x && reach n1 n oz ez z && (beyond l r n ox ex x || beyond t u n oz ez z).
