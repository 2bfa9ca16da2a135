(** The 4-point lifting steps: overflow freedom, rounding, closeness to the matrix. *)
From Coq Require Import ZArith List Bool Arith Lia.
From Verif Require Import ListAux ZfpXform BlockSpec.
Import ListNotations.
Local Open Scope Z_scope.

Section L.
Variable P : nat.
Hypothesis HP : (3 <= P)%nat.

Let H := 2 ^ (Z.of_nat P - 2).

Lemma half_pow : 2 ^ (Z.of_nat P - 1) = 2 * H.
Proof. unfold H. replace (Z.of_nat P - 1) with (Z.succ (Z.of_nat P - 2)) by lia. rewrite Z.pow_succ_r by lia. lia. Qed.
Lemma H_ge : 2 <= H.
Proof. unfold H. change 2 with (2 ^ 1) at 1. apply Z.pow_le_mono_r; lia. Qed.

Lemma chkint_some v : - (2 * H) <= v < 2 * H -> chkint P v = Some v.
Proof.
  intros. unfold chkint. rewrite half_pow.
  rewrite (proj2 (Z.leb_le _ _)) by lia. rewrite (proj2 (Z.ltb_lt _ _)) by lia. reflexivity.
Qed.
Lemma chkint_inv v w : chkint P v = Some w -> w = v /\ - (2 * H) <= v < 2 * H.
Proof.
  unfold chkint. rewrite half_pow. destruct (_ && _) eqn:E; [|discriminate].
  apply andb_prop in E. rewrite Z.leb_le, Z.ltb_lt in E. intros [= <-]. lia.
Qed.

Lemma some4 (a b c d a' b' c' d' : Z) :
  Some (a, b, c, d) = Some (a', b', c', d') -> a = a' /\ b = b' /\ c = c' /\ d = d'.
Proof. intros [= -> -> -> ->]. auto. Qed.

Lemma shr1 v : Z.shiftr v 1 = v / 2.
Proof. rewrite Z.shiftr_div_pow2 by lia. reflexivity. Qed.

Ltac divs := repeat match goal with
  | |- context [Z.shiftr ?v 1] =>
     lazymatch v with context [Z.shiftr] => fail | _ => idtac end;
     rewrite (shr1 v);
     let q := fresh "q" in let E := fresh "E" in
     assert (E : 2 * (v / 2) <= v <= 2 * (v / 2) + 1) by (pose proof (Z.div_mod v 2); pose proof (Z.mod_pos_bound v 2); lia);
     generalize dependent (v / 2); intros q E
  end.
Ltac steps := cbn [bind]; repeat (first
  [ rewrite chkint_some by lia; cbn [bind] | progress divs ]).

Definition all4 (R : Z -> Z -> Prop) (a b : Z * Z * Z * Z) : Prop :=
  let '(x, y, z, w) := a in let '(x', y', z', w') := b in R x x' /\ R y y' /\ R z z' /\ R w w'.
Definition bnd4 (B : Z) (a : Z * Z * Z * Z) : Prop :=
  let '(x, y, z, w) := a in Z.abs x <= B /\ Z.abs y <= B /\ Z.abs z <= B /\ Z.abs w <= B.
Definition close4 E := all4 (fun a b => Z.abs (a - b) <= E).


Ltac unabs := repeat match goal with
  | HH : Z.abs ?a <= ?b |- _ => apply Z.abs_le in HH
  | |- Z.abs ?a <= ?b => apply Z.abs_le
  end.

Lemma fwd_lift_ok B v : 2 <= B <= H - 1 -> bnd4 B v ->
  exists r, fwd_lift P v = Some r /\ bnd4 B r.
Proof.
  destruct v as [[[x y] z] w]. cbn [bnd4]. intros HB (X & Y & Z & W). unabs.
  unfold fwd_lift. clearbody H.
  steps.
  assert (-B <= q <= B) by lia. assert (-B <= q0 <= B) by lia.
  assert (-B <= (w - q) <= B) by lia. assert (-B <= (y - q0) <= B) by lia.
  set (a := w - q) in *. set (b := y - q0) in *. clearbody a b.
  assert (-B <= q2 <= B) by lia. assert (-B <= (b - q2) <= B) by lia.
  assert (- 3 <= 4 * (q2 + q3) - (a + 3 * b) <= 3) by lia.
  assert (-B <= (q2 + q3) <= B) by lia.
  eexists; split; [reflexivity|]. cbn [bnd4]. conjs; unabs; lia.
Qed.

(** the inverse applied to perturbed coefficients *)
Lemma inv_lift_close B E v r r' : 2 <= B -> 0 <= E -> B + 2 * E + 2 <= H ->
  bnd4 B v -> fwd_lift P v = Some r -> close4 E r r' ->
  exists v', inv_lift P r' = Some v' /\ close4 ((15 * E + 13) / 4) v v'.
Proof.
  destruct v as [[[x y] z] w], r' as [[[x' y'] z'] w']. cbn [bnd4].
  intros B2 HE HB (X & Y & Z & W). unabs. unfold fwd_lift. clearbody H.
  steps.
  assert (-B <= q <= B) by lia. assert (-B <= q0 <= B) by lia.
  assert (-B <= (w - q) <= B) by lia. assert (-B <= (y - q0) <= B) by lia.
  assert (-B <= q2 <= B) by lia. assert (-B <= (y - q0 - q2) <= B) by lia.
  set (a := w - q) in *. set (b := y - q0) in *.
  assert (- 3 <= 4 * (q2 + q3) - (a + 3 * b) <= 3) by lia.
  assert (-B <= (q2 + q3) <= B) by lia.
  intros [= <-] C. cbn [close4 all4] in C. destruct C as (C1 & C2 & C3 & C4). unabs.
  unfold inv_lift. subst a b.
  divs.
  assert (D1 : - (3 * E + 1) <= 2 * (y' + q5 - (y - q0 - q2)) <= 3 * E + 1) by lia.
  rewrite chkint_some by lia; cbn [bind]. divs.
  assert (D2 : - (7 * E + 3) <= 4 * (w' - q6 - q2) <= 7 * E + 3) by lia.
  set (Y1 := y' + q5) in *. set (W1 := w' - q6) in *.
  steps. subst Y1 W1.
  assert (0 <= (15 * E + 13) / 4) by (apply Z.div_pos; lia).
  pose proof (Z.div_mod (15 * E + 13) 4). pose proof (Z.mod_pos_bound (15 * E + 13) 4).
  eexists; split; [reflexivity|]. cbn [close4 all4].
  set (K := (15 * E + 13) / 4) in *. clearbody K.
  conjs; unabs; lia.
Qed.

(** exact coefficients: no slack is needed and the error of each sample is at most 2 *)
Lemma inv_lift_exact B v r : 2 <= B <= H - 1 ->
  bnd4 B v -> fwd_lift P v = Some r ->
  exists v', inv_lift P r = Some v' /\ close4 2 v v'.
Proof.
  destruct v as [[[x y] z] w]. cbn [bnd4].
  intros B2 (X & Y & Z & W). unabs. unfold fwd_lift. clearbody H.
  steps.
  assert (-B <= q <= B) by lia. assert (-B <= q0 <= B) by lia.
  assert (-B <= (w - q) <= B) by lia. assert (-B <= (y - q0) <= B) by lia.
  assert (-B <= q1 <= B) by lia. assert (-B <= q0 - q1 <= B) by lia.
  assert (-B <= q2 <= B) by lia. assert (-B <= (y - q0 - q2) <= B) by lia.
  set (a := w - q) in *. set (b := y - q0) in *.
  assert (- 3 <= 4 * (q2 + q3) - (a + 3 * b) <= 3) by lia.
  assert (-B <= (q2 + q3) <= B) by lia.
  intros [= <-]. unfold inv_lift. subst a b.
  divs. assert (q5 = q4) by lia. subst q5.
  rewrite chkint_some by lia; cbn [bind]. divs. assert (q5 = q3) by lia. subst q5.
  rewrite chkint_some by lia; cbn [bind].
  steps.
  eexists; split; [reflexivity|]. cbn [close4 all4].
  conjs; unabs; lia.
Qed.

(** the transform matrices given in the comments of encode.c:39-45 and decode.c:18-23 *)
Lemma fwd_lift_matrix x y z w x' y' z' w' :
  fwd_lift P (x, y, z, w) = Some (x', y', z', w') ->
  Z.abs (16 * x' - (4 * x + 4 * y + 4 * z + 4 * w)) <= 16 /\
  Z.abs (16 * y' - (5 * x + y - z - 5 * w)) <= 23 /\
  Z.abs (16 * z' - (- 4 * x + 4 * y + 4 * z - 4 * w)) <= 12 /\
  Z.abs (16 * w' - (- 2 * x + 6 * y - 6 * z + 2 * w)) <= 12.
Proof.
  unfold fwd_lift.
  repeat match goal with
  | |- bind (chkint P ?v) _ = _ -> _ =>
     let C := fresh "C" in let k := fresh "k" in
     destruct (chkint P v) as [k|] eqn:C; cbn [bind]; [|discriminate];
     apply chkint_inv in C; destruct C as [-> _]
  end.
  divs. intros [= <- <- <- <-]. conjs; unabs; lia.
Qed.

Lemma inv_lift_matrix x y z w x' y' z' w' :
  inv_lift P (x, y, z, w) = Some (x', y', z', w') ->
  Z.abs (4 * x' - (4 * x + 6 * y - 4 * z - w)) <= 5 /\
  Z.abs (4 * y' - (4 * x + 2 * y + 4 * z + 5 * w)) <= 2 /\
  Z.abs (4 * z' - (4 * x - 2 * y + 4 * z - 5 * w)) <= 2 /\
  Z.abs (4 * w' - (4 * x - 6 * y - 4 * z + w)) <= 5.
Proof.
  unfold inv_lift.
  repeat match goal with
  | |- bind (chkint P ?v) _ = _ -> _ =>
     let C := fresh "C" in let k := fresh "k" in
     destruct (chkint P v) as [k|] eqn:C; cbn [bind]; [|discriminate];
     apply chkint_inv in C; destruct C as [-> _]
  end.
  divs. intros Q; apply some4 in Q; destruct Q as (<- & <- & <- & <-). conjs; unabs; lia.
Qed.

Lemma fwd_lift_const c : Z.abs c <= H - 1 -> fwd_lift P (c, c, c, c) = Some (c, 0, 0, 0).
Proof.
  intros. unabs. unfold fwd_lift. pose proof H_ge. clearbody H. steps.
  assert (q = c) by lia. assert (q0 = c) by lia. assert (q1 = 0) by lia. assert (q2 = 0) by lia.
  assert (q3 = 0) by lia. do 3 f_equal; try f_equal; lia.
Qed.
Lemma inv_lift_const c : Z.abs c <= H - 1 -> inv_lift P (c, 0, 0, 0) = Some (c, c, c, c).
Proof.
  intros. unabs. unfold inv_lift. pose proof H_ge. clearbody H. steps.
  assert (q = 0) by lia. assert (q0 = 0) by lia. do 3 f_equal; try f_equal; lia.
Qed.
End L.
