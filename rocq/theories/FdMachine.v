(** Shared-memory loops of the finite-difference programs: memory, assignments, and the
    execution of OpenMP worksharing loops by a team of threads.

    A value type with arbitrary operations is used, so that everything proved without algebraic
    laws also holds for IEEE arithmetic. *)
From Coq Require Import ZArith List Bool QArith Permutation.
Import ListNotations.
Local Open Scope Z_scope.

(** the arrays of fdelmodc.c:330-420 and bndPar, fdelmodc.h:178-181; SRC holds the source
    amplitudes of the current time step (src_ampl in applySource.c), one per source *)
Inductive field := VX | VZ | TZZ | TXX | TXZ | ROX | ROZ | L2M | LAM | MUL | TAPX | TAPZ | TAPXZ | SRC.
Definition field_eq_dec (a b : field) : {a = b} + {a <> b}.
Proof. decide equality. Defined.

(** an array element: field and the two indices; the C index is ix*n1+iz *)
Definition loc := (field * Z * Z)%type.
Definition loc_eq_dec (a b : loc) : {a = b} + {a <> b}.
Proof. decide equality; [apply Z.eq_dec|]. decide equality; [apply Z.eq_dec|apply field_eq_dec]. Defined.

Inductive expr :=
| Lit (q : Q)
| Rd (f : field) (ix iz : Z)
| Add (a b : expr) | Sub (a b : expr) | Mul (a b : expr) | Div (a b : expr) | Neg (a : expr).

(** the array elements an expression loads, in evaluation order *)
Fixpoint reads (e : expr) : list loc :=
  match e with
  | Lit _ => []
  | Rd f ix iz => [(f, ix, iz)]
  | Add a b | Sub a b | Mul a b | Div a b => reads a ++ reads b
  | Neg a => reads a
  end.

(** one assignment; x -= e is x = x - e *)
Record action := mk_action { tgt : loc; rhs : expr }.

Record ops (V : Type) := mk_ops {
  v_lit : Q -> V; v_add : V -> V -> V; v_sub : V -> V -> V; v_mul : V -> V -> V; v_div : V -> V -> V; v_neg : V -> V }.
Arguments v_lit {V}. Arguments v_add {V}. Arguments v_sub {V}. Arguments v_mul {V}. Arguments v_div {V}. Arguments v_neg {V}.

Section Machine.
Context {V : Type} (O : ops V).

Definition mem := loc -> V.
Definition upd (m : mem) (l : loc) (v : V) : mem := fun k => if loc_eq_dec k l then v else m k.

Fixpoint eval (m : mem) (e : expr) : V :=
  match e with
  | Lit q => v_lit O q
  | Rd f ix iz => m (f, ix, iz)
  | Add a b => v_add O (eval m a) (eval m b)
  | Sub a b => v_sub O (eval m a) (eval m b)
  | Mul a b => v_mul O (eval m a) (eval m b)
  | Div a b => v_div O (eval m a) (eval m b)
  | Neg a => v_neg O (eval m a)
  end.

(** sequential execution *)
Definition exec (m : mem) (a : action) : mem := upd m (tgt a) (eval m (rhs a)).
Definition exec_all (l : list action) (m : mem) : mem := fold_left exec l m.

(** evaluation from values loaded earlier, in the order of [reads] *)
Fixpoint eval_loaded (e : expr) (vs : list V) : V * list V :=
  match e with
  | Lit q => (v_lit O q, vs)
  | Rd _ _ _ => match vs with v :: r => (v, r) | [] => (v_lit O 0%Q, []) end
  | Add a b => let '(x, vs) := eval_loaded a vs in let '(y, vs) := eval_loaded b vs in (v_add O x y, vs)
  | Sub a b => let '(x, vs) := eval_loaded a vs in let '(y, vs) := eval_loaded b vs in (v_sub O x y, vs)
  | Mul a b => let '(x, vs) := eval_loaded a vs in let '(y, vs) := eval_loaded b vs in (v_mul O x y, vs)
  | Div a b => let '(x, vs) := eval_loaded a vs in let '(y, vs) := eval_loaded b vs in (v_div O x y, vs)
  | Neg a => let '(x, vs) := eval_loaded a vs in (v_neg O x, vs)
  end.

(** a thread: the assignments it still has to do, and what it has loaded for the first one.
    A step of the team is one load or one store of one thread (OpenMP gives no more than that
    for unprotected shared memory). *)
Record thread := mk_thread { todo : list action; loaded : list V }.
Inductive step : mem * list thread -> mem * list thread -> Prop :=
| step_load m before a rest vs after l :
    nth_error (reads (rhs a)) (length vs) = Some l ->
    step (m, before ++ mk_thread (a :: rest) vs :: after)
         (m, before ++ mk_thread (a :: rest) (vs ++ [m l]) :: after)
| step_store m before a rest vs after :
    length vs = length (reads (rhs a)) ->
    step (m, before ++ mk_thread (a :: rest) vs :: after)
         (upd m (tgt a) (fst (eval_loaded (rhs a) vs)), before ++ mk_thread rest [] :: after).
Inductive steps : mem * list thread -> mem * list thread -> Prop :=
| steps_refl c : steps c c
| steps_next c c' c'' : step c c' -> steps c' c'' -> steps c c''.
Definition finished (ts : list thread) : Prop := Forall (fun t => todo t = []) ts.

(** What a parallel region does between two barriers: worksharing loops whose iterations are
    distributed over the team (the ones before the last are "nowait"), and code every thread
    executes. *)
Inductive item := For (l : list action) | All (l : list action) | Barrier.
Definition work (threads : nat) (i : item) : list action :=
  match i with For l => l | All l => concat (repeat l threads) | Barrier => [] end.
Fixpoint phases (l : list item) : list (list item) :=
  match l with
  | [] => [[]]
  | Barrier :: r => [] :: phases r
  | i :: r => match phases r with p :: ps => (i :: p) :: ps | [] => [[i]] end
  end.

(** a team of [threads] threads executes one such piece: every distribution of the iterations
    in any order, every interleaving of the loads and stores *)
Definition team_phase (threads : nat) (p : list item) (m m' : mem) : Prop :=
  exists ts ts', length ts = threads /\ Permutation (concat ts) (flat_map (work threads) p) /\
    steps (m, map (fun l => mk_thread l []) ts) (m', ts') /\ finished ts'.
Inductive team_run (threads : nat) : list (list item) -> mem -> mem -> Prop :=
| run_nil m : team_run threads [] m m
| run_cons p ps m m1 m2 : team_phase threads p m m1 -> team_run threads ps m1 m2 -> team_run threads (p :: ps) m m2.

(** a single thread, program order *)
Definition serial (l : list item) (m : mem) : mem := exec_all (flat_map (work 1) l) m.
End Machine.
