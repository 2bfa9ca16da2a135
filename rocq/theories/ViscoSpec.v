(** Visco-acoustic and visco-elastic media: what the relaxation times and the recursion of the memory variables mean.
    A standard linear solid with relaxation times te (strain) and ts (stress) has, at angular frequency w, the modulus
    (1 + i w te) / (1 + i w ts) times the relaxed modulus. *)
From Coq Require Import ZArith Reals.
Local Open Scope R_scope.

(** real and imaginary part of the complex modulus *)
Definition storage (te ts w : R) : R := (1 + w * w * te * ts) / (1 + w * w * ts * ts).
Definition loss (te ts w : R) : R := w * (te - ts) / (1 + w * w * ts * ts).
(** (storage + i loss) (1 + i w ts) = 1 + i w te *)
Lemma complex_modulus te ts w : storage te ts w - loss te ts w * (w * ts) = 1 /\ storage te ts w * (w * ts) + loss te ts w = w * te.
Proof.
  assert (0 < 1 + w * w * ts * ts). { replace (1 + w * w * ts * ts) with (1 + (w * ts) * (w * ts)) by ring. pose proof (Rle_0_sqr (w * ts)). unfold Rsqr in *. apply Rplus_lt_le_0_compat; [exact Rlt_0_1|assumption]. }
  unfold storage, loss. split; field; apply Rgt_not_eq; assumption.
Qed.
(** the quality factor *)
Definition quality (te ts w : R) : R := storage te ts w / loss te ts w.

(** The response after j steps of length dt to a unit strain in one step.  M: relaxed modulus; T = te/ts; s = 1/ts.
    The exponential exp(- s t) of the standard linear solid is replaced by a power of its Pade approximation. *)
Definition decay (s dt : R) : R := (1 - s * dt / 2) / (1 + s * dt / 2).
Definition relaxation (M T s dt : R) (j : nat) : R := M * (1 + (T - 1) * decay s dt ^ (j - 1) / (1 + s * dt / 2)).
(** the sum of f 0 ... f (n - 1) *)
Fixpoint upto (n : nat) (f : nat -> R) : R := match n with O => 0 | S m => upto m f + f m end.
(** superposition of the responses to the strains of all steps before n *)
Definition response (G : nat -> R) (strain : nat -> R) (n : nat) : R := upto n (fun k => G (n - k)%nat * strain k).
(** fourth-order derivative half-way between x and x+1, and half-way between x-1 and x *)
Definition ahead (f : Z -> R) (x : Z) : R := 9 / 8 * (f (x + 1)%Z - f x) - 1 / 24 * (f (x + 2)%Z - f (x - 1)%Z).
Definition behind (f : Z -> R) (x : Z) : R := ahead f (x - 1).
