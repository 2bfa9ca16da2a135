(** The cosine taper of the windows (C44), over the real numbers of the standard library. *)
From Coq Require Import ZArith Reals Lia Lra List.
From Verif Require Import Marchenko MarchenkoSpec PropertiesMarchenko.
Local Open Scope R_scope.

(** applyMute.c:22-28: costaper[i] = 0.5*(1+cos((i+1)*PI/(smooth+1))) *)
Definition cosine_taper (smooth k : Z) : R := / 2 * (1 + cos (IZR (k + 1) * (PI / IZR (smooth + 1)))).
Lemma R_ring : is_ring 0 1 Rplus Rmult Ropp.
Proof. constructor; unfold vsub; intros; ring. Qed.
Lemma taper_complement smooth k : (0 <= k < smooth)%Z -> cosine_taper smooth k + cosine_taper smooth (smooth - 1 - k) = 1.
Proof.
  intros Hk. unfold cosine_taper. assert (Hs : IZR (smooth + 1) <> 0) by (apply IZR_neq; lia).
  replace (IZR (smooth - 1 - k + 1) * (PI / IZR (smooth + 1))) with (PI - IZR (k + 1) * (PI / IZR (smooth + 1))).
  - rewrite Rtrigo_facts.cos_pi_minus. lra.
  - replace (smooth - 1 - k + 1)%Z with (smooth + 1 - (k + 1))%Z by lia. rewrite minus_IZR. field. exact Hs.
Qed.
(** With the cosine taper the windows of the focusing and the Green's functions add up to 1. *)
Theorem C44_cosine_complement (data : Z -> R) mute smooth Nfoc nxs nt ixpos shift tsynW :
  (0 < nt)%Z -> (Z.of_nat (length ixpos) <= nxs)%Z ->
  let shape above l i := shape_of above nt (mute (l * nxs + nth (Z.to_nat i) ixpos 0)%Z) (tsynW (l * nxs + nth (Z.to_nat i) ixpos 0)%Z) shift in
  (forall l i, (0 <= l < Nfoc)%Z -> (0 <= i < Z.of_nat (length ixpos))%Z ->
     (mute (l * nxs + nth (Z.to_nat i) ixpos 0) < nt / 2)%Z /\ inside nt smooth (shape 0%Z l i) /\ inside nt smooth (shape 4%Z l i)) ->
  forall l i t, (0 <= l < Nfoc)%Z -> (0 <= i < Z.of_nat (length ixpos))%Z -> (0 <= t < nt)%Z -> let a := (l * nxs * nt + i * nt + t)%Z in
  applyMute R 0 Rmult (cosine_taper smooth) data mute smooth 0 Nfoc nxs nt ixpos shift tsynW a +
  applyMute R 0 Rmult (cosine_taper smooth) data mute smooth 4 Nfoc nxs nt ixpos shift tsynW a = data a.
Proof.
  intros Hn Hp shape Hi. apply (C44_complement R 0 1 Rplus Rmult Ropp R_ring); [exact Hn|exact Hp| |exact Hi]. intros k Hk. now apply taper_complement.
Qed.
Print Assumptions C44_cosine_complement.
(** the taper falls from 1 to 0 *)
Theorem C44_cosine_range smooth k : (0 <= k < smooth)%Z -> 0 < cosine_taper smooth k < 1 /\ ((k + 1 < smooth)%Z -> cosine_taper smooth (k + 1) < cosine_taper smooth k).
Proof.
  intros Hk. assert (Hs : 0 < IZR (smooth + 1)) by (apply IZR_lt; lia). pose proof PI_RGT_0 as Hpi.
  assert (B : forall j, (0 <= j < smooth)%Z -> 0 < IZR (j + 1) * (PI / IZR (smooth + 1)) < PI).
  { intros j Hj. assert (0 < IZR (j + 1)) by (apply IZR_lt; lia). assert (IZR (j + 1) < IZR (smooth + 1)) by (apply IZR_lt; lia).
    split; [apply Rmult_lt_0_compat; [assumption|now apply Rdiv_lt_0_compat]|].
    apply Rlt_le_trans with (IZR (smooth + 1) * (PI / IZR (smooth + 1))); [apply Rmult_lt_compat_r; [now apply Rdiv_lt_0_compat|assumption]|right; field; lra]. }
  destruct (B k Hk) as [B1 B2]. split.
  - unfold cosine_taper. set (x := IZR (k + 1) * (PI / IZR (smooth + 1))) in *.
    pose proof (cos_decreasing_1 0 x ltac:(lra) ltac:(lra) ltac:(lra) ltac:(lra) B1) as C1. pose proof (cos_decreasing_1 x PI ltac:(lra) ltac:(lra) ltac:(lra) ltac:(lra) B2) as C2.
    rewrite cos_0 in C1. rewrite cos_PI in C2. lra.
  - intros Hk1. destruct (B (k + 1)%Z ltac:(lia)) as [B3 B4]. unfold cosine_taper.
    assert (L : IZR (k + 1) * (PI / IZR (smooth + 1)) < IZR (k + 1 + 1) * (PI / IZR (smooth + 1))) by (apply Rmult_lt_compat_r; [now apply Rdiv_lt_0_compat|apply IZR_lt; lia]).
    set (x := IZR (k + 1) * (PI / IZR (smooth + 1))) in *. set (y := IZR (k + 1 + 1) * (PI / IZR (smooth + 1))) in *.
    pose proof (cos_decreasing_1 x y ltac:(lra) ltac:(lra) ltac:(lra) ltac:(lra) L). lra.
Qed.
Print Assumptions C44_cosine_range.
Example C44_cosine_nonvacuous : inside 20 2 (shape_of 0 20 7 0 2) /\ inside 20 2 (shape_of 4 20 7 0 2) /\ cosine_taper 1 0 = / 2.
Proof.
  split; [vm_compute; repeat split; congruence|]. split; [vm_compute; repeat split; congruence|]. unfold cosine_taper. replace (IZR (0 + 1) * (PI / IZR (1 + 1))) with (PI / 2) by (simpl; field). rewrite cos_PI2. lra.
Qed.
