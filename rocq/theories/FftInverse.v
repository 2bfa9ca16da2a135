(** Sums of powers of a root of unity; the transform with the opposite sign inverts the transform. *)
From Coq Require Import ZArith Reals List Lia Lra Ring Psatz.
From Verif Require Import FdKernels KissFft FftSpec FftAux.
Import ListNotations.
Local Open Scope Z_scope.

Lemma C_integral (a b : C) : cmul a b = c0 -> a = c0 \/ b = c0.
Proof.
  destruct a as [x y], b as [u v]. unfold cmul, c0. cbn [fst snd]. intros H. injection H as H1 H2.
  destruct (Req_dec (x * x + y * y) 0) as [E|E].
  - left. assert (x = 0)%R by nra. assert (y = 0)%R by nra. now subst.
  - right. assert (H : ((x * x + y * y) * u = 0)%R) by (replace ((x * x + y * y) * u)%R with (x * (x * u - y * v) + y * (x * v + y * u))%R by ring; rewrite H1, H2; ring).
    assert (H0 : ((x * x + y * y) * v = 0)%R) by (replace ((x * x + y * y) * v)%R with (x * (x * v + y * u) - y * (x * u - y * v))%R by ring; rewrite H1, H2; ring).
    apply Rmult_integral in H as [H|H]; [contradiction|]. apply Rmult_integral in H0 as [H0|H0]; [contradiction|]. now subst.
Qed.
Lemma root_neq_1 n s d : s = 1 \/ s = -1 -> 0 < d < n -> root n s d <> c1.
Proof.
  intros Hs Hd H. unfold root, c1 in H. injection H as H _.
  set (t := (PI * IZR d / IZR n)%R) in *. assert (Hn : (0 < IZR n)%R) by (apply (IZR_lt 0); lia). assert (Hd' : (0 < IZR d < IZR n)%R) by (split; [apply (IZR_lt 0); lia|apply IZR_lt; lia]).
  replace (2 * PI * IZR d / IZR n)%R with (2 * t)%R in H by (unfold t; field; lra). rewrite cos_2a_sin in H.
  assert (0 < sin t)%R; [|nra]. pose proof PI_RGT_0. apply sin_gt_0; unfold t.
  - apply Rdiv_lt_0_compat; [nra|lra].
  - apply (Rmult_lt_reg_r (IZR n)); [lra|]. replace (PI * IZR d / IZR n * IZR n)%R with (PI * IZR d)%R by (field; lra). nra.
Qed.
Lemma total_root_zero n s d : s = 1 \/ s = -1 -> 0 < n -> d mod n <> 0 -> total (Z.to_nat n) (fun l => root n s (l * d)) = c0.
Proof.
  intros Hs Hn Hd. set (S := total (Z.to_nat n) (fun l => root n s (l * d))).
  assert (G : forall m, cmul (csub (root n s d) c1) (total m (fun l => root n s (l * d))) = csub (root n s (Z.of_nat m * d)) c1).
  { induction m as [|m IH]; [cbn [total]; rewrite Z.mul_0_l, root_0; change (0, 0)%R with c0; ring|].
    cbn [total]. change plus with cadd. replace (Z.of_nat (Datatypes.S m) * d) with (d + Z.of_nat m * d) by lia. rewrite root_add by exact Hs.
    transitivity (cadd (cmul (csub (root n s d) c1) (total m (fun l => root n s (l * d)))) (cmul (csub (root n s d) c1) (root n s (Z.of_nat m * d)))); [ring|]. rewrite IH. ring. }
  specialize (G (Z.to_nat n)). rewrite Z2Nat.id in G by lia. rewrite root_mult in G by (exact Hs || lia). fold S in G.
  assert (G' : cmul (csub (root n s d) c1) S = c0) by (rewrite G; ring). apply C_integral in G' as [E|E]; [exfalso|exact E].
  apply (root_neq_1 n s (d mod n) Hs); [pose proof (Z.mod_pos_bound d n); lia|]. rewrite root_mod by (exact Hs || lia).
  transitivity (cadd (csub (root n s d) c1) c1); [ring|]. rewrite E. ring.
Qed.
Lemma total_const n c : total n (fun _ => c) = scaled (INR n) c.
Proof. induction n as [|n IH]; [unfold scaled; cbn; f_equal; ring|]. cbn [total]. rewrite IH. rewrite S_INR. unfold plus, scaled. cbn [fst snd]. f_equal; ring. Qed.
Lemma root_sign n s k : root n (- s) k = conj (root n s k).
Proof. unfold root, conj. cbn [fst snd]. f_equal. rewrite opp_IZR. ring. Qed.
Theorem dft_inverse n s x k : s = 1 \/ s = -1 -> 0 <= k < n -> dft n (- s) (dft n s x) k = scaled (IZR n) (x k).
Proof.
  intros Hs Hk. unfold dft. rewrite times_cmul.
  rewrite (total_ext _ _ (fun l => total (Z.to_nat n) (fun j => cmul (x j) (root n s (l * (j - k)))))).
  2:{ intros l Hl. rewrite <- total_mul_r. apply total_ext. intros j Hj. rewrite root_sign, <- root_opp by exact Hs. replace (l * (j - k)) with (j * l + - (l * k)) by ring. rewrite root_add by exact Hs. ring. }
  rewrite total_swap. rewrite (total_single _ _ k).
  - rewrite (total_ext _ _ (fun _ => x k)); [|intros l Hl; rewrite Z.sub_diag, Z.mul_0_r, root_0; ring]. rewrite total_const, INR_IZR_INZ, Z2Nat.id by lia. reflexivity.
  - lia.
  - intros j Hj N. rewrite total_mul_l, total_root_zero; [ring|exact Hs|lia|]. rewrite Z2Nat.id in Hj by lia. intros E. apply Z.mod_divide in E; [|lia]. destruct E as [q E]. assert (q = 0) by nia. nia.
Qed.
