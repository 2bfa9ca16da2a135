(** Bodies in a gridded model: sets of cells around a centre. *)
From Coq Require Import ZArith Reals.
Local Open Scope Z_scope.

(** column and row *)
Definition cell := (Z * Z)%type.
(** h columns and rows on the side of the smaller indices, h on the other one with the centre *)
Definition in_square (h : Z) (centre c : cell) : Prop := - h <= fst c - fst centre < h /\ - h <= snd c - snd centre < h.
Definition in_diamond (h : Z) (centre c : cell) : Prop := Z.abs (fst c - fst centre) + Z.abs (snd c - snd centre) <= h.
(** distance between centres of cells, in cells *)
Definition distance (a b : cell) : R := sqrt (IZR (fst a - fst b) * IZR (fst a - fst b) + IZR (snd a - snd b) * IZR (snd a - snd b)).
(** inside the ellipse with vertical radius r1 and horizontal radius r2 *)
Definition in_ellipse (dx dz r1 r2 : R) (centre c : cell) : Prop :=
  let u := (IZR (fst c - fst centre) * dx / r2)%R in let w := (IZR (snd c - snd centre) * dz / r1)%R in (u * u + w * w <= 1)%R.
Definition in_model (nx nz : Z) (c : cell) : Prop := 0 <= fst c < nx /\ 0 <= snd c < nz.
(** a row of bodies 0..n-1 of one kind, placed one after the other over the values m: the last one that contains the cell determines its value *)
Definition painted {V} (n : Z) (inside : Z -> cell -> Prop) (value : Z -> V) (m m' : cell -> V) : Prop := forall c,
  (exists i, 0 <= i < n /\ inside i c /\ (forall j, i < j < n -> ~ inside j c) /\ m' c = value i) \/ ((forall i, 0 <= i < n -> ~ inside i c) /\ m' c = m c).
