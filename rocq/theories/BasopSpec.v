(** Operations on the traces of one gather (utils/basop). *)
From Coq Require Import ZArith Reals.
From Verif Require Import FftSpec FconvSpec.
Local Open Scope R_scope.

(** operations that multiply the spectrum of every trace with a function of the angular frequency om *)
Inductive operation : Set :=
  | Shift (tau : R) | Rotate (parts : R) | Jom | Jom_i | Sjom | Sjom_i | Som | Som_i | Sk (c : R) | Sk_i (c : R) | K_i (c : R).
Definition transfer (op : operation) (om : R) : R * R :=
  match op with
  | Shift tau => (cos (om * tau), - sin (om * tau))                      (* exp(-i om tau) *)
  | Rotate parts => (cos (parts * PI), sin (parts * PI))                  (* exp(i pi parts) *)
  | Jom => (0, om)                                                        (* i om *)
  | Jom_i => (0, - / om)                                                  (* 1/(i om) *)
  | Sjom => (sqrt om * cos (PI / 4), sqrt om * sin (PI / 4))              (* sqrt(i om) *)
  | Sjom_i => (/ sqrt om * cos (PI / 4), - (/ sqrt om * sin (PI / 4)))    (* 1/sqrt(i om) *)
  | Som => (sqrt om, 0)
  | Som_i => (/ sqrt om, 0)
  | Sk c => (sqrt (om / c), 0)
  | Sk_i c => (/ sqrt (om / c), 0)
  | K_i c => (/ (om / c), 0)
  end.
(** frequency number k of n samples with distance dt, and the distance between two frequencies *)
Definition frequency (n : Z) (dt : R) (k : Z) : R := IZR k / (IZR n * dt).
(** the frequencies that pass: those above fmin, one below it, and those at least one step below fmax; only the shift passes zero *)
Definition passes (op : operation) (n : Z) (dt fmin fmax : R) (k : Z) : Prop :=
  fmin < frequency n dt (k + 1) <= fmax /\ (match op with Shift _ => True | _ => (1 <= k)%Z end).
(** trace i of a gather *)
Definition trace_of (data : Z -> R) (nsam i t : Z) : R := data (i * nsam + t)%Z.
