(** Mute of snapshots: utils/mutesnap.c, the work on the time samples of one point.  Arithmetic in the reals. *)
From Coq Require Import ZArith Reals List.
From Verif Require Import FdKernels Marchenko.
Import ListNotations.
Local Open Scope Z_scope.

(** mutesnap.c:263-278 (topdet): state (ind, max) *)
Definition topdet (a : Z -> R) (nt : Z) : Z :=
  fst (fold_left (fun (s : Z * R) it => if Rlt_dec (snd s) (Rabs (a it)) then (it, Rabs (a it)) else s) (range 1 (nt / 2)) (0, Rabs (a 0))).
(** mutesnap.c:280-293 (farrdet): the break ends the search at the first hit *)
Definition farrdet (a : Z -> R) (nt : Z) (tol : R) : Z :=
  match find (fun it => if Rlt_dec tol (Rabs (a it)) then true else false) (range 0 (nt / 2)) with Some it => it | None => 0 end.
(** mutesnap.c:97-103: contents of the taper, elements 0 .. smooth-1 *)
Definition costaper (smooth it : Z) : R := (1 / 2 * (1 + cos ((IZR it + 1) * (PI / IZR smooth))))%R.
(** mutesnap.c:190; ht = nth/2 (line 139) *)
Definition rmt (nth ind shift smooth : Z) : Z := Z.max (Z.min (nth - ind) ind - shift - smooth) 0.
(** mutesnap.c:191-200 (opt=0) on the samples h of one point; tap: the taper array *)
Definition mute_center (nth ind shift smooth : Z) (tap : Z -> R) (h : Z -> R) : Z -> R :=
  let ht := nth / 2 in let a := ht - rmt nth ind shift smooth + 1 in
  let g := fun it (v : R) => if it - a <? smooth then (v * tap (it - a)%Z)%R else 0%R in
  fold_left (fun h it => let h := upd h it (g it (h it)) in upd h (nth - it) (g it (h (nth - it)))) (range a (ht + 1)) h.
(** samples written, and elements of the taper read *)
Definition center_writes (nth ind shift smooth : Z) : list Z :=
  let ht := nth / 2 in flat_map (fun it => [it; nth - it]) (range (ht - rmt nth ind shift smooth + 1) (ht + 1)).
Definition center_taper_reads (nth ind shift smooth : Z) : list Z :=
  let ht := nth / 2 in let a := ht - rmt nth ind shift smooth + 1 in
  flat_map (fun it => if it - a <? smooth then [it - a] else []) (range a (ht + 1)).
(** mutesnap.c:225-230 (opt=1) *)
Definition mute_start (ind shift smooth : Z) (tap : Z -> R) (h : Z -> R) : Z -> R :=
  let h := fold_left (fun h it => upd h it (h it * tap (it - (ind - shift) - 1)%Z)%R) (range (Z.max (ind - shift - smooth) 0) (Z.max (ind - shift) 0)) h in
  fold_left (fun h it => upd h it 0%R) (range 0 (Z.max (ind - shift - smooth) 0)) h.
Definition start_writes (ind shift smooth : Z) : list Z := range (Z.max (ind - shift - smooth) 0) (Z.max (ind - shift) 0) ++ range 0 (Z.max (ind - shift - smooth) 0).
Definition start_taper_reads (ind shift smooth : Z) : list Z := map (fun it => it - (ind - shift) - 1) (range (Z.max (ind - shift - smooth) 0) (Z.max (ind - shift) 0)).
