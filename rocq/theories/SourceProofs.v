From Coq Require Import ZArith Reals List Bool Lia Lra.
From Verif Require Import ListAux FdKernels ReadModel ViscoSpec SourceSpec Source ViscoProofs.
Import ListNotations.
Local Open Scope R_scope.

(** contribution of increments to one element *)
Definition share (a : array) (j : Z) (i : increment) : R :=
  let '(a', j', v) := i in if array_eqb a' a && (j' =? j)%Z then v else 0.
Fixpoint shares (a : array) (j : Z) (l : list increment) : R :=
  match l with [] => 0 | i :: r => share a j i + shares a j r end.
Lemma shares_app : forall a j l r, shares a j (l ++ r) = shares a j l + shares a j r.
Proof. induction l as [|i l IH]; intro r; cbn [app shares]; [ring | rewrite IH; ring]. Qed.
Lemma apply_shares : forall l f a j, fold_left apply l f a j = f a j + shares a j l.
Proof.
  induction l as [|[[a' j'] v] l IH]; intros f a j; cbn [fold_left shares]; [ring|].
  rewrite IH. cbn [apply share]. destruct (array_eqb a' a && (j' =? j)%Z); ring.
Qed.
Lemma shares_sources : forall a j (h : nat -> list increment) n,
  shares a j (flat_map h (seq 0 n)) = upto n (fun i => shares a j (h i)).
Proof.
  induction n as [|n IH]; [reflexivity|].
  rewrite seq_S, flat_map_app, shares_app, IH. cbn [flat_map upto Nat.add]. rewrite app_nil_r. reflexivity.
Qed.
(** a point of the grid *)
Lemma address_unit : forall n1 ix iz x z dx dz, (0 <= z < n1)%Z -> (0 <= iz + dz < n1)%Z ->
  ((ix * n1 + iz + (dx * n1 + dz) =? x * n1 + z)%Z) = (((x - ix =? dx) && (z - iz =? dz))%Z).
Proof.
  intros n1 ix iz x z dx dz Hz Hd. apply eq_true_iff_eq. rewrite andb_true_iff, !Z.eqb_eq. split; [|intros [E1 E2]; replace x with (ix + dx)%Z by lia; replace z with (iz + dz)%Z by lia; ring].
  intro E. assert (Q : (ix + dx = x)%Z) by nia. split; nia.
Qed.
Lemma share_unit : forall n1 ix iz x z dx dz a' a j v, (0 <= z < n1)%Z -> (0 <= iz + dz < n1)%Z ->
  (j = ix * n1 + iz + (dx * n1 + dz))%Z ->
  share a (x * n1 + z) (a', j, v) = if array_eqb a' a then v * unit_at dx dz (x - ix)%Z (z - iz)%Z else 0.
Proof.
  intros n1 ix iz x z dx dz a' a j v Hz Hd ->. unfold share, unit_at. rewrite (address_unit n1 ix iz x z dx dz Hz Hd).
  destruct (array_eqb a' a); cbn [andb]; [|reflexivity]. destruct ((x - ix =? dx)%Z && (z - iz =? dz)%Z); ring.
Qed.
Lemma eqb_refl_array : forall a, array_eqb a a = true. Proof. intros []; reflexivity. Qed.

Lemma unit_shift : forall i k di dk x z, unit_at i k (x - di)%Z (z - dk)%Z = unit_at (i + di) (k + dk) x z.
Proof.
  intros. unfold unit_at. replace (x - di =? i)%Z with (x =? i + di)%Z by (destruct (Z.eqb_spec x (i + di)), (Z.eqb_spec (x - di) i); lia).
  replace (z - dk =? k)%Z with (z =? k + dk)%Z by (destruct (Z.eqb_spec z (k + dk)), (Z.eqb_spec (z - dk) k); lia). reflexivity.
Qed.
Section ONE.
Variables (g : FdKernels.grid) (b : bnd) (s : src) (t : step) (rox roz l2m : Z -> R).
Variables (ix iz x z : Z) (w : R).
Let n1 := naz g.
Hypothesis Hz : (0 <= z < n1)%Z.
Hypothesis Hi : (1 <= iz)%Z.
Hypothesis Hj : (iz + 1 < n1)%Z.
Hypothesis H13 : (s_type s = 13 -> 2 <= iz)%Z.
Hypothesis H8 : (s_type s = 8 -> iz + 2 < n1)%Z.
Hypothesis Hl : l2m (ix * n1 + iz)%Z <> 0.
Hypothesis Hh : t_dx t <> 0.
Hypothesis Ht : t_dt t <> 0.
Let a := w * (1 / t_dx t * l2m (ix * n1 + iz)%Z).
Let rel (f : Z -> R) : pattern := fun x z => f ((ix + x) * n1 + (iz + z))%Z.
Let med := mkMedium (rel rox) (rel roz) (rel l2m).
Let mom := mkMoments (s_Mxx s) (s_Mzz s) (s_Mxz s) (s_wx s) (s_wz s).
Let above := (ibndz g b s <? iz)%Z.
Let below := (iz <? nz g + ibndz g b s - 1)%Z.
Let surface := ((iz =? ibndz g b s) && (top b =? 1))%Z.
Let inj := injected (negb (t_ischeme t <=? 2)%Z) (s_type s) (orient g b s t) surface above below (t_dx t) (t_dt t) med mom.
Lemma rel00 : forall f, rel f 0%Z 0%Z = f (ix * n1 + iz)%Z.
Proof. intro f. unfold rel. f_equal. ring. Qed.
Lemma rel10 : forall f, rel f 1%Z 0%Z = f (ix * n1 + iz + n1)%Z.
Proof. intro f. unfold rel. f_equal. ring. Qed.
Lemma rel01 : forall f, rel f 0%Z 1%Z = f (ix * n1 + iz + 1)%Z.
Proof. intro f. unfold rel. f_equal. ring. Qed.
Ltac one_share dx dz := 
  match goal with |- context [share ?f (x * n1 + z) (?f', ?j, ?v)] =>
    rewrite (share_unit n1 ix iz x z dx dz f' f j v) by (lia || (unfold n1; ring)) end.
Ltac do_shares := repeat (first [one_share 0%Z 0%Z | one_share 0%Z 1%Z | one_share 0%Z (-1)%Z | one_share 1%Z 0%Z | one_share (-1)%Z 0%Z
  | one_share (-1)%Z (-1)%Z | one_share 1%Z 1%Z | one_share (-1)%Z 1%Z | one_share 1%Z (-1)%Z | one_share 0%Z 2%Z | one_share 2%Z 0%Z | one_share 0%Z (-2)%Z | one_share (-2)%Z 0%Z]).
Ltac finish := intros; unfold a, plus, minus, times, none; try (field; repeat split; assumption); try (ring || (unfold Rdiv; ring)).
Ltac basic f := destruct (t_ischeme t <=? 2)%Z; cbn [shares negb]; do_shares; destruct f; cbn [array_eqb Mxx Mzz Mxz wx wz mom]; finish.
Ltac zibi f := destruct (t_ischeme t <=? 2)%Z; cbn [shares negb]; unfold s_zibi, c1, c2; fold n1; cbv zeta; cbn [shares]; do_shares; destruct f; cbn [array_eqb fst snd around4]; finish.
Ltac orients := destruct (orient g b s t) as [|q|q]; [ | do 3 (try destruct q) | ]; cbn [Z.eqb Pos.eqb shares app dipole oriented shear].
Ltac spot f := destruct (t_ischeme t <=? 2)%Z; cbn [shares negb]; [destruct f; finish|]; unfold s_potential, rotation_at; fold n1; cbv zeta; 
  orients; do_shares; destruct f; cbn [array_eqb fst snd around]; unfold times, shifted, minus; cbv beta; generalize (x - ix)%Z, (z - iz)%Z; intros X Y; rewrite ?unit_shift; cbn [Z.add Z.opp Pos.add Z.pos_sub Pos.pred_double]; finish.
Ltac ppot f := destruct (t_ischeme t <=? 2)%Z; cbn [shares negb]; [destruct f; finish|]; unfold p_potential, expansion_at; fold n1; cbv zeta; 
  orients; do_shares; destruct f; cbn [array_eqb fst snd outwards]; unfold times, shifted, minus; cbv beta; generalize (x - ix)%Z, (z - iz)%Z; intros X Y; rewrite ?unit_shift; cbn [Z.add Z.opp Pos.add Z.pos_sub Pos.pred_double]; finish.
Ltac shearc f := destruct (t_ischeme t <=? 2)%Z; cbn [shares negb]; [destruct f; finish|]; unfold shear_stress; fold n1; cbv zeta; fold surface; unfold shear; destruct surface;
  orients; do_shares; destruct f; cbn [array_eqb]; finish.
Ltac comp f := unfold compressional; fold n1 above below; cbv zeta; destruct (t_ischeme t <=? 2)%Z; cbn [negb]; rewrite ?shares_app;
  orients; try destruct above; try destruct below; cbn [app shares]; do_shares; destruct f; cbn [array_eqb]; finish.
Lemma one_shares : forall f, shares f (x * n1 + z) (forces g s t rox roz l2m ix iz a ++ stresses g b s t rox l2m ix iz a) = w * inj f (x - ix)%Z (z - iz)%Z.
Proof.
  intro f. rewrite shares_app. unfold forces, stresses, inj, injected. fold n1. cbv zeta.
  cbn [bx bz k med]. rewrite !rel00, !rel10, !rel01.
  destruct (s_type s) as [|p|p] eqn:E; [ | do 4 (try destruct p) | ];
    cbn [Z.eqb Pos.eqb orb shares];
    try (destruct (t_ischeme t <=? 2)%Z; cbn [shares]; unfold none; ring);
    try (specialize (H13 eq_refl)); try (specialize (H8 eq_refl)).
  - basic f.
  - basic f.
  - zibi f.
  - basic f.
  - spot f.
  - basic f.
  - basic f.
  - basic f.
  - basic f; unfold Rdiv.
    + generalize (/ l2m (ix * n1 + iz + n1)%Z); intro; field; repeat split; assumption.
    + generalize (/ l2m (ix * n1 + iz + 1)%Z); intro; field; repeat split; assumption.
    + generalize (/ l2m (ix * n1 + iz + n1)%Z); intro; field; repeat split; assumption.
    + generalize (/ l2m (ix * n1 + iz + 1)%Z); intro; field; repeat split; assumption.
  - ppot f.
  - basic f.
  - shearc f.
  - comp f.
Qed.
End ONE.
