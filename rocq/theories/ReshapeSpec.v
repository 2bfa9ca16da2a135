(** Arrays in four dimensions. *)
From Coq Require Import ZArith.
Local Open Scope Z_scope.
(** index of element (a, b, c, d) of an array with sizes (na,) nb, nc, nd; the last dimension is the fastest *)
Definition index4 (nb nc nd a b c d : Z) : Z := ((a * nb + b) * nc + c) * nd + d.
