(** Virtual sources by correlation of traces. *)
From Coq Require Import ZArith Reals List.
From Verif Require Import FftSpec FconvSpec.
Import ListNotations.
Local Open Scope Z_scope.

(** a trace of nt samples, zero behind its end *)
Definition extended (nt : Z) (d : Z -> R) (t : Z) : R := if t <? nt then d t else 0%R.
(** correlation at lag t (positive: the second trace is later) of two traces of nt samples: the sum over s of a(s) b(s+t) *)
Definition crosscorrelation (nt : Z) (a b : Z -> R) (t : Z) : R := true_correlation nt (extended nt b) a t.
(** sum over a list *)
Definition list_sum {A} (f : A -> R) (l : list A) : R := fold_right (fun p s => f p + s)%R 0%R l.
(** a source position strictly on the other side of p than q, in both coordinates; and strictly on the same side of q as p *)
Definition beyond (p q s : Z * Z) : Prop := (fst s - fst p) * (fst p - fst q) > 0 /\ (snd s - snd p) * (snd p - snd q) > 0.
Definition same_side (p q s : Z * Z) : Prop := (fst s - fst q) * (fst p - fst q) > 0 /\ (snd s - snd q) * (snd p - snd q) > 0.
(** m is the largest of f(0), ..., f(n-1) *)
Definition largest (n : Z) (f : Z -> R) (m : R) : Prop := (forall k, 0 <= k < n -> (f k <= m)%R) /\ exists k, 0 <= k < n /\ f k = m.
