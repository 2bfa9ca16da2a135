(** The free surface of the modelling. *)
From Coq Require Import ZArith Reals.
Local Open Scope Z_scope.

(** row iz is the first one from row from that has a value other than v *)
Definition first_other (value : Z -> R) (v : R) (from iz : Z) : Prop :=
  from <= iz /\ value iz <> v /\ forall j, from <= j < iz -> value j = v.
(** Hooke's law in two dimensions: the stresses of the strains exx and ezz, for the moduli l2m = lambda+2mu and lam = lambda *)
Definition normal_stress (l2m lam exx ezz : R) : R * R := (l2m * exx + lam * ezz, lam * exx + l2m * ezz)%R.
(** fourth-order difference of the four values a, b, c, d around a point *)
Definition difference4 (a b c d : R) : R := (9 / 8 * (c - b) - / 24 * (d - a))%R.
