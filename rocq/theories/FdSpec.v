(** Vocabulary for the statements about the finite-difference kernels. *)
From Coq Require Import ZArith List Bool QArith.
From Verif Require Import FdMachine FdKernels.
Import ListNotations.
Local Open Scope Z_scope.

(** the element exists: the wave fields and the medium have nax columns of naz values, the
    tapers npml (tapx, tapz) and npml*npml (tapxz) values, and there is one amplitude per source *)
Definition inside (g : grid) (b : bnd) (nsrc : nat) (x : loc) : Prop :=
  match x with
  | (TAPX, i, j) | (TAPZ, i, j) => 0 <= i < npml b /\ j = 0
  | (TAPXZ, i, j) => 0 <= i < npml b /\ 0 <= j < npml b
  | (SRC, k, j) => 0 <= k < Z.of_nat nsrc /\ j = 0
  | (_, ix, iz) => 0 <= ix < nax g /\ 0 <= iz < naz g
  end.
(** every load and store of a program, whatever the number of threads *)
Definition accesses (prog : list item) (x : loc) : Prop :=
  exists threads a, In a (flat_map (work threads) prog) /\ (x = tgt a \/ In x (reads (rhs a))).

Definition wavefield (f : field) : bool := match f with VX | VZ | TZZ | TXX | TXZ => true | _ => false end.
Definition velocity (f : field) : bool := match f with VX | VZ => true | _ => false end.
Definition medium (f : field) : bool := match f with ROX | ROZ | L2M | LAM | MUL => true | _ => false end.

(** the schemes for which [fd_kernel] is the whole kernel *)
Definition scheme_ok (ischeme iorder : Z) : Prop :=
  (ischeme = 1 /\ (iorder = 4 \/ iorder = 6 \/ iorder = 16)) \/ (ischeme = 3 /\ iorder = 6) \/ (ischeme = 5 /\ iorder = 4).
(** free (1), rigid (3) or tapered (4) sides; free ones only in the acoustic schemes *)
Definition side_ok (ischeme side : Z) : Prop := side = 3 \/ side = 4 \/ (side = 1 /\ ischeme = 1).
(** a source inside the model *)
Definition source_ok (nz : Z) (s : Z * Z) : Prop := 0 <= snd s <= nz.

(** [n] time steps: before each the amplitudes of the sources are set to those of the step
    (interpolated from the wavelet), and the step is one call of the kernel; the other fields
    are what the previous step left.  fdelmodc.c:572-720, without the recording *)
Definition with_sources {V} (m : mem (V := V)) (ampl : Z -> V) : mem :=
  fun x => match x with (SRC, k, _) => ampl k | _ => m x end.
Fixpoint march {V} (O : ops V) (prog : list item) (ampl : nat -> Z -> V) (n : nat) (m : mem) : mem :=
  match n with
  | O%nat => m
  | S n' => serial O prog (with_sources (march O prog ampl n' m) (ampl n'))
  end.

(** the same, executed by teams of threads *)
Inductive team_march {V} (O : ops V) (threads : nat) (prog : list item) (ampl : nat -> Z -> V) : nat -> mem -> mem -> Prop :=
| march_0 m : team_march O threads prog ampl 0 m m
| march_S n m m1 m2 : team_march O threads prog ampl n m m1 -> team_run O threads (phases prog) (with_sources m1 (ampl n)) m2 ->
    team_march O threads prog ampl (S n) m m2.

(** exact arithmetic, as far as superposition needs it *)
Record linear {V} (O : ops V) (zero : V) : Prop := {
  lin_lit0 : v_lit O 0%Q = zero;
  lin_add0 : v_add O zero zero = zero;
  lin_mul0 : forall c, v_mul O c zero = zero;
  lin_add : forall a b c d, v_add O (v_add O a b) (v_add O c d) = v_add O (v_add O a c) (v_add O b d);
  lin_sub : forall a b c d, v_sub O (v_add O a b) (v_add O c d) = v_add O (v_sub O a c) (v_sub O b d);
  lin_mul : forall a b c, v_mul O c (v_add O a b) = v_add O (v_mul O c a) (v_mul O c b);
  lin_mul_sub : forall a b c, v_mul O c (v_sub O a b) = v_sub O (v_mul O c a) (v_mul O c b);
  lin_div : forall a b c, v_div O (v_add O a b) c = v_add O (v_div O a c) (v_div O b c);
  lin_mul_div : forall a b c, v_mul O c (v_div O a b) = v_div O (v_mul O c a) b;
  lin_neg : forall a b, v_neg O (v_add O a b) = v_add O (v_neg O a) (v_neg O b);
  lin_mul_neg : forall a c, v_mul O c (v_neg O a) = v_neg O (v_mul O c a);
  lin_assoc : forall a b c, v_mul O a (v_mul O b c) = v_mul O (v_mul O a b) c;
  lin_comm : forall a b, v_mul O a b = v_mul O b a }.

(** the k-th cell (ix, iz) is at most r cells away *)
Definition near (r x z : Z) (l : loc) : Prop := Z.abs (snd (fst l) - x) <= r /\ Z.abs (snd l - z) <= r.

(** how many cells a time step can reach: the two stencils, and the mirror at a free surface *)
Definition reach (g : grid) (b : bnd) : Z := 2 * Z.max 2 (iorder g / 2) + (if top b =? 1 then 3 else 0).
(** two runs cannot be told apart within [r] cells of (x, z): same fields, medium and tapers *)
Definition agree_near {V} (r x z : Z) (m1 m2 : mem (V := V)) : Prop :=
  forall l, match fst (fst l) with
            | TAPX | TAPZ | TAPXZ => m1 l = m2 l
            | SRC => True
            | _ => near r x z l -> m1 l = m2 l
            end.

(** ** the scheme *)
(** c1*d(0) + c2*d(1) + ..., from the left *)
Definition stencil {V} (O : ops V) (cs : list Q) (d : Z -> V) : V :=
  match cs with
  | [] => v_lit O 0
  | c :: r => fold_left (v_add O) (map (fun '(k, c) => v_mul O (v_lit O c) (d (Z.of_nat k))) (combine (seq 1 (length r)) r))
                (v_mul O (v_lit O c) (d 0))
  end.
(** continued: ... + c1*e(0) + c2*e(1) + ... *)
Definition stencil_from {V} (O : ops V) (start : V) (cs : list Q) (e : Z -> V) : V :=
  fold_left (v_add O) (map (fun '(k, c) => v_mul O (v_lit O c) (e (Z.of_nat k))) (combine (seq 0 (length cs)) cs)) start.

Definition taylor4 : list Q := [9 # 8; -1 # 24].
Definition taylor6 : list Q := [75 # 64; -25 # 384; 3 # 640].
Definition optimal4 : list Q := [1129042 # 1000000; -4301412 # 100000000].
Definition optimal16 : list Q := [1259312 # 1000000; -1280347 # 10000000; 3841945 # 100000000; -1473229 # 100000000;
  5924913 # 1000000000; -2248618 # 1000000000; 7179226 # 10000000000; -1400855 # 10000000000].

Section Scheme.
Context {V : Type} (O : ops V) (m : mem (V := V)).
(** half-cell differences of a field: across the left or upper face, and across the right or lower one *)
Definition left_diff f ix iz k := v_sub O (m (f, ix + k, iz)) (m (f, ix - k - 1, iz)).
Definition up_diff f ix iz k := v_sub O (m (f, ix, iz + k)) (m (f, ix, iz - k - 1)).
Definition right_diff f ix iz k := v_sub O (m (f, ix + k + 1, iz)) (m (f, ix - k, iz)).
Definition down_diff f ix iz k := v_sub O (m (f, ix, iz + k + 1)) (m (f, ix, iz - k)).
(** p - q + r - s, from the left *)
Definition both (d e : Z -> V * V) (k : Z) : V :=
  v_sub O (v_add O (v_sub O (fst (d k)) (snd (d k))) (fst (e k))) (snd (e k)).
Definition left_pair f ix iz k := (m (f, ix + k, iz), m (f, ix - k - 1, iz)).
Definition up_pair f ix iz k := (m (f, ix, iz + k), m (f, ix, iz - k - 1)).
Definition right_pair f ix iz k := (m (f, ix + k + 1, iz), m (f, ix - k, iz)).
Definition down_pair f ix iz k := (m (f, ix, iz + k + 1), m (f, ix, iz - k)).

(** rho dv/dt = - grad p and dp/dt = - K div v, discretised *)
Definition vx_acoustic cs ix iz := v_sub O (m (VX, ix, iz)) (v_mul O (m (ROX, ix, iz)) (stencil O cs (left_diff TZZ ix iz))).
Definition vz_acoustic cs ix iz := v_sub O (m (VZ, ix, iz)) (v_mul O (m (ROZ, ix, iz)) (stencil O cs (up_diff TZZ ix iz))).
(** rho dv/dt = div tau *)
Definition vx_elastic cs ix iz := v_sub O (m (VX, ix, iz))
  (v_mul O (m (ROX, ix, iz)) (stencil O cs (both (left_pair TXX ix iz) (down_pair TXZ ix iz)))).
Definition vz_elastic cs ix iz := v_sub O (m (VZ, ix, iz))
  (v_mul O (m (ROZ, ix, iz)) (stencil O cs (both (up_pair TZZ ix iz) (right_pair TXZ ix iz)))).
(** in terms of the velocities after the step ([m] = old stresses, [v] = new velocities) *)
End Scheme.
Definition p_acoustic {V} (O : ops V) (m v : mem) cs ix iz : V := v_sub O (m (TZZ, ix, iz)) (v_mul O (m (L2M, ix, iz))
  (stencil_from O (stencil O cs (right_diff O v VX ix iz)) cs (down_diff O v VZ ix iz))).
Definition txx_elastic {V} (O : ops V) (m v : mem) lam cs ix iz : V := v_sub O (m (TXX, ix, iz))
  (v_add O (v_mul O (m (L2M, ix, iz)) (stencil O cs (right_diff O v VX ix iz))) (v_mul O (m (lam, ix, iz)) (stencil O cs (down_diff O v VZ ix iz)))).
Definition tzz_elastic {V} (O : ops V) (m v : mem) lam cs ix iz : V := v_sub O (m (TZZ, ix, iz))
  (v_add O (v_mul O (m (L2M, ix, iz)) (stencil O cs (down_diff O v VZ ix iz))) (v_mul O (m (lam, ix, iz)) (stencil O cs (right_diff O v VX ix iz)))).
Definition txz_elastic {V} (O : ops V) (m v : mem) cs ix iz : V := v_sub O (m (TXZ, ix, iz))
  (v_mul O (m (MUL, ix, iz)) (stencil O cs (both O (up_pair v VX ix iz) (left_pair v VZ ix iz)))).

(** the interior of the velocity grids, and how far outside a tapered cell lies *)
Definition beyond (lo hi i : Z) : option Z := if i <? lo then Some (lo - 1 - i) else if i <? hi then None else Some (i - hi).
(** a tapered value: by the distance to the interior, both distances in a corner *)
Definition tapered_value {V} (O : ops V) (m : mem) (side : field) (dx dz : option Z) (inner outer : V) : V :=
  match dx, dz with
  | None, None => inner
  | Some d, None | None, Some d => v_mul O outer (m (side, d, 0))
  | Some d, Some e => v_mul O outer (m (TAPXZ, d, e))
  end.

(** polynomials and their derivatives *)
Fixpoint poly (cs : list Q) (x : Q) : Q := match cs with [] => 0 | c :: r => c + x * poly r x end.
Fixpoint dpoly (cs : list Q) (x : Q) : Q := match cs with [] => 0 | c :: r => poly r x + x * dpoly r x end.
Definition Qops : ops Q := mk_ops Q (fun q => q) Qplus Qminus Qmult Qdiv Qopp.
