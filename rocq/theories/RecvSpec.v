(** Specification of the receiver positions of fdelmodc: lines of receivers, points and circles.
    Nothing here refers to the model of the code. *)
From Coq Require Import ZArith QArith Qabs List.
Import ListNotations.
Local Open Scope Z_scope.

(** a line of receivers asked for by the user: first and last point, and the distances dxrcv and dzrcv *)
Record line := { l_x1 : Q; l_x2 : Q; l_z1 : Q; l_z2 : Q; l_sx : Q; l_sz : Q }.
(** the extent of the model: origin, distances and numbers of grid points *)
Record geom := { g_x0 : Q; g_z0 : Q; g_dx : Q; g_dz : Q; g_nx : Z; g_nz : Z }.
(** the positions of the last column and row *)
Definition x_end (g : geom) : Q := (g_x0 g + inject_Z (g_nx g - 1) * g_dx g)%Q.
Definition z_end (g : geom) : Q := (g_z0 g + inject_Z (g_nz g - 1) * g_dz g)%Q.
Definition sound (g : geom) : Prop := (0 < g_dx g)%Q /\ (0 < g_dz g)%Q /\ 1 <= g_nx g /\ 1 <= g_nz g.

(** the line runs inside the model from left to right and downwards *)
Definition inside_model (g : geom) (l : line) : Prop :=
  (g_x0 g <= l_x1 l /\ l_x1 l <= l_x2 l /\ l_x2 l <= x_end g /\ g_z0 g <= l_z1 l /\ l_z1 l <= l_z2 l /\ l_z2 l <= z_end g)%Q.
(** the distance in x is given and the line has at least two receivers; or it is 0 and the one in z is given *)
Definition by_x (l : line) : Prop := (0 < l_sx l /\ l_sx l <= 2 * (l_x2 l - l_x1 l))%Q.
Definition by_z (l : line) : Prop := (l_sx l == 0 /\ 0 < l_sz l /\ l_sz l <= 2 * (l_z2 l - l_z1 l))%Q.

(** [n] is the number of receivers: one more than the number of distances that fit best *)
Definition fits (range step : Q) (n : Z) : Prop := (Qabs (range - inject_Z (n - 1) * step) <= step / 2)%Q.
Definition number_of (l : line) (n : Z) : Prop := 2 <= n /\ (by_x l -> fits (l_x2 l - l_x1 l) (l_sx l) n) /\ (by_z l -> fits (l_z2 l - l_z1 l) (l_sz l) n).

(** the position of receiver [r] of [n]: steps of the given distance in one direction, and in the other equal
    parts of the extent of the line *)
Definition at_line (l : line) (n r : Z) (x z : Q) : Prop :=
  (by_x l -> x == l_x1 l + inject_Z r * l_sx l /\ z == l_z1 l + inject_Z r * ((l_z2 l - l_z1 l) / inject_Z (n - 1)))%Q /\
  (by_z l -> x == l_x1 l + inject_Z r * ((l_x2 l - l_x1 l) / inject_Z (n - 1)) /\ z == l_z1 l + inject_Z r * l_sz l)%Q.

(** [i] is the grid index nearest to the position [x] *)
Definition nearest_to (x0 dx x : Q) (i : Z) : Prop := (Qabs (x - x0 - inject_Z i * dx) <= dx / 2)%Q.

(** the number of receivers of the first [i] lines *)
Definition before (ns : Z -> Z) (i : Z) : Z := fold_right Z.add 0 (map (fun k => ns (Z.of_nat k)) (seq 0 (Z.to_nat i))).

(** the distances are given for every line; or none in z, and one in x for all lines (by default that of the grid) *)
Definition steps_given (g : geom) (dxs dzs : list Q) (L : list line) : Prop :=
  (dxs = map l_sx L /\ dzs = map l_sz L) \/
  (dzs = [] /\ exists s, (dxs = [s] \/ dxs = [] /\ s = g_dx g) /\ forall l, In l L -> l_sx l = s /\ l_sz l = 0%Q).

(** a circle of receivers: rrcv, dphi, oxrcv, ozrcv; the number of receivers on it *)
Record circle := { c_r : Q; c_dphi : Q; c_ox : Q; c_oz : Q }.
Definition circle_number (o : option circle) (n : Z) : Prop :=
  match o with None => n = 0 | Some c => 0 <= n /\ (Qabs (360 / c_dphi c - inject_Z n) <= 1 # 2)%Q end.

(** a receiver as it is stored: coordinates relative to the origin of the model ([None]: not a number) and grid indices *)
Record rcv := { r_xr : option Q; r_zr : option Q; r_x : option Z; r_z : option Z }.
(** the receiver [o] has the coordinates [x], [z] *)
Definition has_coordinates (g : geom) (o : option rcv) (x z : Q) : Prop :=
  exists v a b, o = Some v /\ r_xr v = Some a /\ r_zr v = Some b /\ (a == x - g_x0 g)%Q /\ (b == z - g_z0 g)%Q.
(** and its grid indices are the nearest ones *)
Definition placed (g : geom) (o : option rcv) (x z : Q) : Prop :=
  has_coordinates g o x z /\ exists v i j, o = Some v /\ r_x v = Some i /\ r_z v = Some j /\ nearest_to (g_x0 g) (g_dx g) x i /\ nearest_to (g_z0 g) (g_dz g) z j.
(** or the nearest ones of the model *)
Definition placed_inside (g : geom) (o : option rcv) (x z : Q) : Prop :=
  has_coordinates g o x z /\ exists v i j, o = Some v /\ r_x v = Some (Z.min (g_nx g - 1) (Z.max i 0)) /\ r_z v = Some (Z.min (g_nz g - 1) (Z.max j 0)) /\
    nearest_to (g_x0 g) (g_dx g) x i /\ nearest_to (g_z0 g) (g_dz g) z j.
