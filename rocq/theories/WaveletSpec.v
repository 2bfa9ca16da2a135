(** Source signatures of fdelmodc. *)
From Coq Require Import ZArith Reals.
From Verif Require Import FftSpec FconvSpec.
Local Open Scope R_scope.

(** the wavelet of the file, ns samples, followed by zeroes *)
Definition silent (ns : Z) (w : Z -> R) (t : Z) : R := if (t <? ns)%Z then w t else 0.
(** angular frequency number k of n samples with distance ds *)
Definition omega (n : Z) (ds : R) (k : Z) : R := 2 * PI * IZR k / (IZR n * ds).
(** division by i omega: integration in time; multiplication with exp(-i omega tau): delay by tau *)
Definition integrated (om : R) (z : R * R) : R * R := (snd z / om, - fst z / om).
Definition delayed (om tau : R) (z : R * R) : R * R := times z (cos (om * tau), - sin (om * tau)).
(** both, at frequency number k: integration unless the wavelet is a rate, delay if there is one *)
Definition conditioned (n : Z) (ds : R) (rate : bool) (tau : option R) (k : Z) (z : R * R) : R * R :=
  let z := if rate then z else integrated (omega n ds k) z in
  match tau with Some tau => delayed (omega n ds k) tau z | None => z end.
(** m is the largest absolute value of the n values f *)
Definition is_peak (m : R) (f : Z -> R) (n : Z) : Prop :=
  (forall j, (0 <= j < n)%Z -> Rabs (f j) <= m) /\ (exists j, (0 <= j < n)%Z /\ Rabs (f j) = m).
(** cubic polynomial and its derivative *)
Definition cubic (p : R * R * R * R) (x : R) : R := let '(a, b, c, d) := p in a * x ^ 3 + b * x ^ 2 + c * x + d.
Definition slope (p : R * R * R * R) (x : R) : R := let '(a, b, c, d) := p in 3 * a * x ^ 2 + 2 * b * x + c.
(** central difference of fourth order *)
Definition difference4 (r : Z -> R) (j : Z) : R := (r (j - 2)%Z - 8 * r (j - 1)%Z + 8 * r (j + 1)%Z - r (j + 2)%Z) / 12.
(** nearest integer *)
Definition nearest (x : R) (n : Z) : Prop := x - / 2 < IZR n <= x + / 2.
