(** Smoothing, extension and truncation of gridded models. *)
From Coq Require Import ZArith Reals Bool.
From Verif Require Import FconvSpec.
Local Open Scope Z_scope.

(** two indices at most h apart *)
Definition near (h a b : Z) : bool := Z.abs (a - b) <=? h.
(** sum over the traces and samples of a gather that are at most hx traces and ht samples from trace x, sample t *)
Definition window_sum (nrec nsam hx ht : Z) (d : Z -> Z -> R) (x t : Z) : R :=
  Sum nrec (fun x' => Sum nsam (fun t' => if near hx x x' && near ht t t' then d x' t' else 0%R)).
(** the mean over this window *)
Definition window_mean (nrec nsam hx ht : Z) (d : Z -> Z -> R) (x t : Z) : R := (window_sum nrec nsam hx ht d x t / window_sum nrec nsam hx ht (fun _ _ => 1%R) x t)%R.
(** v to the power p; zero stays zero for negative powers *)
Definition to_power (pw : R -> R -> R) (p v : R) : R := if Req_EM_T p 1 then v else if Req_EM_T v 0 then (if Rlt_dec p 0 then v else pw v p) else pw v p.
(** k moved into 0, ..., n-1 *)
Definition clamp (n k : Z) : Z := Z.max 0 (Z.min (n - 1) k).
