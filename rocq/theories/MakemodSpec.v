(** What the interfaces and grids of makemod should be.  Independent of the model. *)
From Coq Require Import ZArith QArith List Bool.
Import ListNotations.
Local Open Scope Q_scope.

(** polynomials by their coefficients, lowest first *)
Definition eval (p : list Q) (x : Q) : Q := fold_right (fun a acc => a + x * acc) 0 p.
(** p has degree less than n and passes through the points first..last *)
Definition through (xa ya : Z -> Q) (first last : Z) (p : list Q) : Prop :=
  (Z.of_nat (length p) <= last - first + 1)%Z /\ forall i, (first <= i <= last)%Z -> eval p (xa i) == ya i.
(** no two of the abscissae are equal *)
Definition distinct (xa : Z -> Q) (n : Z) : Prop := forall i j, (1 <= i < j)%Z -> (j <= n)%Z -> ~ xa i == xa j.
Definition increasing (xa : Z -> Q) (first last : Z) : Prop := forall i j, (first <= i < j)%Z -> (j <= last)%Z -> xa i < xa j.

(** cubic pieces in the distance s to the left end, with derivatives *)
Record cubic := mkCubic { k0 : Q; k1 : Q; k2 : Q; k3 : Q }.
Definition value (c : cubic) (s : Q) : Q := k0 c + k1 c * s + k2 c * s ^ 2 + k3 c * s ^ 3.
Definition slope (c : cubic) (s : Q) : Q := k1 c + 2 * k2 c * s + 3 * k3 c * s ^ 2.
Definition curvature (c : cubic) (s : Q) : Q := 2 * k2 c + 6 * k3 c * s.
(** a condition at an end: no curvature, or a given slope *)
Inductive at_end := Free | Slope (v : Q).
Definition end_condition (e : at_end) (c : cubic) (s : Q) : Prop := match e with Free => curvature c s == 0 | Slope v => slope c s == v end.
(** cubic spline through the points 1..n: pieces c 1 .. c (n-1) *)
Definition cubic_spline (x y : Z -> Q) (n : Z) (e1 en : at_end) (c : Z -> cubic) : Prop :=
  (forall k, (1 <= k < n)%Z -> value (c k) 0 == y k /\ value (c k) (x (k + 1)%Z - x k) == y (k + 1)%Z) /\
  (forall k, (1 <= k < n - 1)%Z -> slope (c k) (x (k + 1)%Z - x k) == slope (c (k + 1)%Z) 0 /\ curvature (c k) (x (k + 1)%Z - x k) == curvature (c (k + 1)%Z) 0) /\
  end_condition e1 (c 1%Z) 0 /\ end_condition en (c (n - 1)%Z) (x n - x (n - 1)%Z).

(** The value v at abscissa u is on the straight line from (x1,z1) to (x2,z2). *)
Definition on_line (x1 z1 x2 z2 u v : Q) : Prop := v * (x2 - x1) == z1 * (x2 - u) + z2 * (u - x1).
(** Row r is the nearest one to depth d, upwards in case of a tie; depths above the surface give row 0. *)
Definition row_of (dz d : Q) (r : Z) : Prop :=
  (0 <= d -> inject_Z r * dz - dz / 2 <= d /\ d < inject_Z r * dz + dz / 2) /\ (d < 0 -> r = 0%Z).
(** The points 0..n-1 are at the columns m 0 < m 1 < ... of a grid of nx columns. *)
Definition on_grid (x : Z -> Q) (m : Z -> Z) (n nx : Z) (dx : Q) : Prop :=
  0 < dx /\ (1 <= n)%Z /\ (0 <= m 0%Z)%Z /\ (0 < m (n - 1)%Z < nx)%Z /\
  (forall i, (0 <= i < n)%Z -> x i == inject_Z (m i) * dx) /\ (forall i j, (0 <= i < j)%Z -> (j < n)%Z -> (m i < m j)%Z).

(** Value at row j below an interface at row top: velocity c1 with vertical gradient grad, after a
    transition over g rows from c0 (linear for opt 1, with half a cosine for opt 2).  At the surface
    the transition starts one row further. *)
Definition below (cospi : Q -> Q) (opt g top : Z) (c0 c1 grad : Q) (j : Z) (v : Q) : Prop :=
  if (opt =? 3)%Z then v == c1 + inject_Z (j - top) * grad
  else if (j <=? top + g)%Z then
    let t := inject_Z (j - top + (if (top =? 0)%Z then 1 else 0)) / inject_Z g in
    v == c0 + (c1 - c0) * (if (opt =? 1)%Z then t else (1 - cospi t) / 2)
  else v == c1 + inject_Z (j - top - g - 1) * grad.

(** ** layers *)
(** The interface through the points (x i, z i), 0 <= i < n, has depth d at abscissa u: a broken
    line, a polynomial of degree less than n, or a natural cubic spline. *)
Inductive shape := Broken | Polynomial | Spline.
Definition depth_at (sh : shape) (x z : Z -> Q) (n : Z) (u d : Q) : Prop :=
  match sh with
  | Broken => (exists k, (0 <= k < n)%Z /\ x k == u /\ d == z k) \/
              (exists k, (1 <= k < n)%Z /\ x (k - 1)%Z < u /\ u < x k /\ on_line (x (k - 1)%Z) (z (k - 1)%Z) (x k) (z k) u d)
  | Polynomial => exists p, through x z 0 (n - 1) p /\ d == eval p u
  | Spline => exists c k, cubic_spline (fun i => x (i - 1)%Z) (fun i => z (i - 1)%Z) n Free Free c /\
                (1 <= k < n)%Z /\ x (k - 1)%Z <= u /\ u <= x k /\ d == value (c k) (u - x (k - 1)%Z)
  end.
(** A layer: its upper interface, its velocity, the rows of the transition from the velocity of the
    layer defined before it (None: no transition), and its vertical gradient. *)
Record stratum := mkStratum { s_shape : shape; s_x : Z -> Q; s_z : Z -> Q; s_n : Z; s_cp : Q; s_trans : option Z; s_grad : Q }.
Definition covers (s : stratum) (u : Q) : Prop := s_x s 0%Z <= u /\ u <= s_x s (s_n s - 1)%Z.
Definition top_row (dx dz : Q) (s : stratum) (c r : Z) : Prop := exists d, depth_at (s_shape s) (s_x s) (s_z s) (s_n s) (inject_Z c * dx) d /\ row_of dz d r.
(** the velocity in force before the strata ls, latest first *)
Definition speed (cp0 : Q) (ls : list stratum) : Q := match ls with [] => cp0 | s :: _ => s_cp s end.
(** The value at column c and row j: that of the latest stratum which covers the column and whose top
    is not below the row. *)
Fixpoint rock (cospi : Q -> Q) (gradt : Z) (dx dz cp0 : Q) (ls : list stratum) (c j : Z) (v : Q) : Prop :=
  match ls with
  | [] => v == cp0
  | s :: ls =>
    (covers s (inject_Z c * dx) /\ exists r, top_row dx dz s c r /\ (r <= j)%Z /\
       match s_trans s with
       | None => below cospi 3 0 r (speed cp0 ls) (s_cp s) (s_grad s) j v
       | Some g => below cospi gradt g r (speed cp0 ls) (s_cp s) (s_grad s) j v
       end) \/
    ((~ covers s (inject_Z c * dx) \/ exists r, top_row dx dz s c r /\ (j < r)%Z) /\ rock cospi gradt dx dz cp0 ls c j v)
  end.

(** ** smoothing *)
(** sum over the five by five neighbours *)
Definition sum25 (f : Z -> Z -> Q) : Q := fold_right (fun p s => f (fst p) (snd p) + s) 0 (list_prod [-2; -1; 0; 1; 2]%Z [-2; -1; 0; 1; 2]%Z).
(** v is the weighted arithmetic (harmonic) mean of the values of m around the point (4 ix + 2, 4 iz + 2) *)
Definition mean_at (W : Z -> Z -> Q) (m : Z -> Z -> Q) (ix iz : Z) (v : Q) : Prop :=
  v * sum25 W == sum25 (fun a b => W a b * m (4 * ix + 2 + a)%Z (4 * iz + 2 + b)%Z).
Definition harmonic_at (W : Z -> Z -> Q) (m : Z -> Z -> Q) (ix iz : Z) (v : Q) : Prop :=
  v * sum25 (fun a b => W a b / m (4 * ix + 2 + a)%Z (4 * iz + 2 + b)%Z) == sum25 W.
