(** Range and near-inverse of the d-dimensional transforms. *)
From Coq Require Import ZArith List Bool Arith Lia.
From Verif Require Import ListAux Bitstream BitstreamProofs ZfpXform BlockSpec LiftProofs XformProofs.
Import ListNotations.
Local Open Scope Z_scope.

(** all lines along an axis *)
Definition axis_lines (d a : nat) : list (nat * nat) :=
  map (fun o => (o, 4 ^ a)%nat) (filter (fun o => (o / 4 ^ a mod 4 =? 0)%nat) (seq 0 (4 ^ d))).

Lemma axis_lines_ok d a : (1 <= d <= 4)%nat -> (a < d)%nat -> lines_ok d a (axis_lines d a) = true.
Proof.
  intros D A.
  assert (d = 1 \/ d = 2 \/ d = 3 \/ d = 4)%nat as [->|[->|[->| ->]]] by lia;
  assert (a = 0 \/ a = 1 \/ a = 2 \/ a = 3)%nat as [->|[->|[->| ->]]] by lia; try lia;
  vm_compute; reflexivity.
Qed.

Lemma Forall2_nth {A} (R : A -> A -> Prop) b c z : length b = length c ->
  (forall i, (i < length b)%nat -> R (nth i b z) (nth i c z)) -> Forall2 R b c.
Proof.
  revert c; induction b; destruct c; cbn; intros L H; try lia; constructor.
  - apply (H 0%nat); lia.
  - apply IHb; [lia|]. intros i I. apply (H (S i)); lia.
Qed.
Lemma nth_Forall2 {A} (R : A -> A -> Prop) b c z i : Forall2 R b c -> (i < length b)%nat -> R (nth i b z) (nth i c z).
Proof.
  intros H; revert i; induction H; cbn; intros i I; [lia|]. destruct i; [assumption|]. apply IHForall2; lia.
Qed.
Lemma Forall2_len {A B} (R : A -> B -> Prop) b c : Forall2 R b c -> length b = length c.
Proof. induction 1; cbn; lia. Qed.

Section A.
Variables (d a : nat).
Hypothesis HD : (1 <= d <= 4)%nat.
Hypothesis HA : (a < d)%nat.

Lemma cover j : (j < 4 ^ d)%nat ->
  exists off, (off < 4 ^ d)%nat /\ (off / 4 ^ a mod 4 = 0)%nat /\ In j (idx (off, 4 ^ a)%nat).
Proof.
  intros J. pose proof (axis_lines_ok d a HD HA) as K. unfold lines_ok in K.
  apply andb_prop in K as [K K4]. apply andb_prop in K as [K K3].
  rewrite forallb_forall in K3. specialize (K3 j). rewrite in_seq in K3. specialize (K3 ltac:(lia)).
  apply existsb_exists in K3 as (x & I & E). apply Nat.eqb_eq in E. subst x.
  apply in_flat_map in I as ((o & t) & I & JJ). unfold axis_lines in I.
  apply in_map_iff in I as (o' & [= <- <-] & F). apply filter_In in F as [F1 F2].
  apply in_seq in F1. apply Nat.eqb_eq in F2. exists o'. conjs; auto. lia.
Qed.

Lemma line_range off : (off < 4 ^ d)%nat -> (off / 4 ^ a mod 4 = 0)%nat -> (off + 3 * 4 ^ a < 4 ^ d)%nat.
Proof.
  intros O Z. pose proof (axis_lines_ok d a HD HA) as K. unfold lines_ok in K.
  apply andb_prop in K as [K K4]. apply andb_prop in K as [K K3]. apply andb_prop in K as [K _].
  rewrite forallb_forall in K. specialize (K (off, 4 ^ a)%nat).
  assert (I : In (off, 4 ^ a)%nat (axis_lines d a)).
  { apply in_map_iff. exists off. split; [reflexivity|]. apply filter_In. split; [apply in_seq; lia|]. now apply Nat.eqb_eq. }
  specialize (K I). apply andb_prop in K as [K _]. apply andb_prop in K as [_ K]. apply Nat.ltb_lt in K. exact K.
Qed.

Lemma along_exists f b : length b = (4 ^ d)%nat ->
  (forall off, (off < 4 ^ d)%nat -> (off / 4 ^ a mod 4 = 0)%nat -> exists q, f (line b off (4 ^ a)) = Some q) ->
  exists c, along f d a b c.
Proof.
  intros L F. pose proof (axis_lines_ok d a HD HA) as K.
  pose proof (fun c => pass_along f d a (axis_lines d a) b c K L) as PA.
  pose proof K as K0. unfold lines_ok in K.
  apply andb_prop in K as [K K4]. apply andb_prop in K as [K K3]. apply andb_prop in K as [K1 K2].
  destruct (lift_lines_spec f (axis_lines d a) b) as (c & A & _).
  - intros l I. rewrite forallb_forall in K1. specialize (K1 l I). apply andb_prop in K1 as [K1 _].
    apply andb_prop in K1 as [X Y]. apply Nat.eqb_eq in X. apply Nat.ltb_lt in Y.
    assert (1 <= 4 ^ a)%nat by (apply Nat.neq_0_lt_0, Nat.pow_nonzero; lia). lia.
  - apply nodupb_ok. assumption.
  - intros l I. apply in_map_iff in I as (o & <- & G). apply filter_In in G as [F1 F2].
    apply in_seq in F1. apply Nat.eqb_eq in F2. cbn [fst snd]. apply F; [lia|assumption].
  - exists c. apply PA. assumption.
Qed.

Lemma bnd_line B b off : length b = (4 ^ d)%nat -> bounded B b -> (off < 4 ^ d)%nat -> (off / 4 ^ a mod 4 = 0)%nat ->
  bnd4 B (line b off (4 ^ a)).
Proof.
  intros L F O Z. pose proof (line_range off O Z). unfold line. cbn [bnd4].
  unfold bounded in F. rewrite Forall_forall in F.
  conjs; apply F, nth_In; lia.
Qed.

Lemma lines_bnd B b : length b = (4 ^ d)%nat ->
  (forall off, (off < 4 ^ d)%nat -> (off / 4 ^ a mod 4 = 0)%nat -> bnd4 B (line b off (4 ^ a))) -> bounded B b.
Proof.
  intros L F. apply Forall_forall. intros x I. apply (In_nth _ _ 0) in I as (j & J & <-).
  destruct (cover j ltac:(lia)) as (off & O & Z & IJ). specialize (F off O Z).
  unfold line in F. cbn [bnd4] in F. cbn [idx In] in IJ.
  destruct F as (F1 & F2 & F3 & F4). destruct IJ as [<-|[<-|[<-|[<-|[]]]]]; assumption.
Qed.

Lemma close_line E b c off : length b = (4 ^ d)%nat -> close E b c -> (off < 4 ^ d)%nat -> (off / 4 ^ a mod 4 = 0)%nat ->
  close4 E (line b off (4 ^ a)) (line c off (4 ^ a)).
Proof.
  intros L F O Z. pose proof (line_range off O Z). unfold line. cbn [close4 all4].
  unfold close in F. conjs; apply (nth_Forall2 _ _ _ _ _ F); lia.
Qed.

Lemma lines_close E b c : length b = (4 ^ d)%nat -> length c = (4 ^ d)%nat ->
  (forall off, (off < 4 ^ d)%nat -> (off / 4 ^ a mod 4 = 0)%nat -> close4 E (line b off (4 ^ a)) (line c off (4 ^ a))) -> close E b c.
Proof.
  intros L L' F. apply (Forall2_nth _ _ _ 0); [lia|]. intros j J.
  destruct (cover j ltac:(lia)) as (off & O & Z & IJ). specialize (F off O Z).
  unfold line in F. cbn [close4 all4] in F. cbn [idx In] in IJ.
  destruct F as (F1 & F2 & F3 & F4). destruct IJ as [<-|[<-|[<-|[<-|[]]]]]; assumption.
Qed.
End A.

Lemma along_all_app f d l1 l2 b c :
  along_all f d (l1 ++ l2) b c <-> exists m, along_all f d l1 b m /\ along_all f d l2 m c.
Proof.
  revert b; induction l1; cbn [app along_all]; intros b.
  - split; [intros; exists b; auto|intros (m & -> & H); exact H].
  - split.
    + intros (m & A & R). apply IHl1 in R as (m' & R1 & R2). exists m'. split; [exists m; auto|assumption].
    + intros (m & (m' & A & R) & R2). exists m'. split; [assumption|]. apply IHl1. exists m; auto.
Qed.

Lemma growth1_ge E : 0 <= E -> E <= growth1 E.
Proof. intros. unfold growth1. apply Z.div_le_lower_bound; lia. Qed.
Lemma growth_ge n E : 0 <= E -> E <= growth n E.
Proof. intros. induction n; cbn [growth]; [lia|]. pose proof (growth1_ge (growth n E)). lia. Qed.

Section D.
Variables (P d : nat).
Hypothesis HP : (3 <= P)%nat.
Hypothesis HD : (1 <= d <= 4)%nat.
Let H := 2 ^ (Z.of_nat P - 2).

Lemma fwd_axis B a b : (a < d)%nat -> length b = (4 ^ d)%nat -> 2 <= B <= H - 1 -> bounded B b ->
  exists c, along (fwd_lift P) d a b c /\ bounded B c.
Proof.
  intros A L HB F.
  destruct (along_exists d a HD A (fwd_lift P) b L) as (c & AL).
  - intros off O Z. destruct (fwd_lift_ok P HP B (line b off (4 ^ a)) HB) as (q & Q & _).
    + apply (bnd_line d); auto.
    + exists q; assumption.
  - exists c. split; [assumption|]. destruct AL as (_ & LC & AL).
    apply (lines_bnd d a); auto. intros off O Z.
    destruct (fwd_lift_ok P HP B (line b off (4 ^ a)) HB) as (q & Q & BQ).
    + apply (bnd_line d); auto.
    + rewrite AL in Q by assumption. congruence.
Qed.

Lemma fwd_axes B axes b : (forall a, In a axes -> a < d)%nat -> length b = (4 ^ d)%nat ->
  2 <= B <= H - 1 -> bounded B b ->
  exists c, along_all (fwd_lift P) d axes b c /\ bounded B c /\ length c = (4 ^ d)%nat.
Proof.
  revert b; induction axes as [|a axes IH]; intros b A L HB F.
  - exists b. cbn. auto.
  - destruct (fwd_axis B a b) as (m & M1 & M2); auto; [apply A; left; reflexivity|].
    destruct (IH m) as (c & C1 & C2 & C3); auto.
    + intros x X. apply A. right; assumption.
    + apply (along_length _ _ _ _ _ M1).
    + exists c. conjs; auto. exists m. auto.
Qed.

Lemma inv_axis B E a b c c' : (a < d)%nat -> 2 <= B -> 0 <= E -> B + 2 * E + 2 <= H ->
  bounded B b -> along (fwd_lift P) d a b c -> close E c c' ->
  exists b', along (inv_lift P) d a c' b' /\ close (growth1 E) b b'.
Proof.
  intros A B2 HE HB F AL CL. pose proof AL as (LB & LC & AL').
  assert (LC' : length c' = (4 ^ d)%nat) by (rewrite <- LC; symmetry; apply (Forall2_len _ _ _ CL)).
  assert (X : forall off, (off < 4 ^ d)%nat -> (off / 4 ^ a mod 4 = 0)%nat ->
     exists v', inv_lift P (line c' off (4 ^ a)) = Some v' /\ close4 (growth1 E) (line b off (4 ^ a)) v').
  { intros off O Z.
    apply (inv_lift_close P HP B E _ (line c off (4 ^ a))); auto.
    - apply (bnd_line d); auto.
    - apply (close_line d a HD A); auto. }
  destruct (along_exists d a HD A (inv_lift P) c' LC') as (b' & BA).
  - intros off O Z. destruct (X off O Z) as (v & V & _). eauto.
  - exists b'. split; [assumption|]. destruct BA as (_ & LB' & BA).
    apply (lines_close d a HD A); auto. intros off O Z.
    destruct (X off O Z) as (v & V & C). rewrite BA in V by assumption. congruence.
Qed.

Lemma inv_axis_exact B a b c : (a < d)%nat -> 2 <= B <= H - 1 ->
  bounded B b -> along (fwd_lift P) d a b c ->
  exists b', along (inv_lift P) d a c b' /\ close 2 b b'.
Proof.
  intros A HB F AL. pose proof AL as (LB & LC & AL').
  assert (X : forall off, (off < 4 ^ d)%nat -> (off / 4 ^ a mod 4 = 0)%nat ->
     exists v', inv_lift P (line c off (4 ^ a)) = Some v' /\ close4 2 (line b off (4 ^ a)) v').
  { intros off O Z. apply (inv_lift_exact P HP B); auto. apply (bnd_line d); auto. }
  destruct (along_exists d a HD A (inv_lift P) c LC) as (b' & BA).
  - intros off O Z. destruct (X off O Z) as (v & V & _). eauto.
  - exists b'. split; [assumption|]. destruct BA as (_ & LB' & BA).
    apply (lines_close d a HD A); auto. intros off O Z.
    destruct (X off O Z) as (v & V & C). rewrite BA in V by assumption. congruence.
Qed.

Lemma fwd_axis_bounded B a b c : (a < d)%nat -> 2 <= B <= H - 1 -> bounded B b ->
  along (fwd_lift P) d a b c -> bounded B c.
Proof.
  intros A HB F (LB & LC & AL).
  apply (lines_bnd d a); auto. intros off O Z.
  destruct (fwd_lift_ok P HP B (line b off (4 ^ a)) HB) as (q & Q & BQ).
  - apply (bnd_line d); auto.
  - rewrite AL in Q by assumption. congruence.
Qed.

Lemma inv_axes B E axes b c c' : (forall a, In a axes -> a < d)%nat -> 2 <= B -> 0 <= E ->
  B + 2 * growth (length axes - 1) E + 2 <= H ->
  bounded B b -> along_all (fwd_lift P) d axes b c -> close E c c' ->
  exists b', along_all (inv_lift P) d (rev axes) c' b' /\ close (growth (length axes) E) b b'.
Proof.
  revert b; induction axes as [|a axes IH]; intros b A B2 HE HB F AL CL.
  - cbn in *. subst c. exists c'. auto.
  - destruct AL as (m & M & AL). cbn [length rev] in *.
    replace (S (length axes) - 1)%nat with (length axes) in HB by lia.
    pose proof (growth_ge (length axes) E HE).
    assert (HB' : B + 2 * growth (length axes - 1) E + 2 <= H).
    { destruct axes; [cbn [length Nat.sub] in *; exact HB|]. cbn [length] in *. replace (S (length axes) - 1)%nat with (length axes) by lia.
      cbn [growth] in HB. pose proof (growth1_ge (growth (length axes) E)). pose proof (growth_ge (length axes) E). lia. }
    destruct (IH m) as (m' & M1 & M2); auto.
    + intros x X. apply A. right; assumption.
    + apply (fwd_axis_bounded B a b); auto; [apply A; left; reflexivity|lia].
    + destruct (inv_axis B (growth (length axes) E) a b m m') as (b' & B1 & B3); auto; try lia.
      * apply A; left; reflexivity.
      * exists b'. split; [|assumption]. apply along_all_app. exists m'. split; [assumption|].
        apply along_one. assumption.
Qed.

Lemma inv_axes_exact B axes b c : (forall a, In a axes -> a < d)%nat -> 2 <= B <= H - 1 -> axes <> [] ->
  (length axes = 1%nat \/ B + 2 * growth (length axes - 2) 2 + 2 <= H) ->
  bounded B b -> along_all (fwd_lift P) d axes b c ->
  exists b', along_all (inv_lift P) d (rev axes) c b' /\ close (growth (length axes - 1) 2) b b'.
Proof.
  revert b; induction axes as [|a axes IH]; intros b A B2 NE HB F AL; [congruence|].
  destruct AL as (m & M & AL).
  destruct axes as [|a2 axes].
  - cbn in AL. subst m. destruct (inv_axis_exact B a b c) as (b' & B1 & B3); auto.
    + apply A; left; reflexivity.
    + exists b'. split; [apply along_one; assumption|exact B3].
  - set (ax := a2 :: axes) in *. assert (LA : length ax = S (length axes)) by reflexivity.
    cbn [length rev] in *. rewrite LA in *.
    replace (S (S (length axes)) - 2)%nat with (length axes) in HB by lia.
    replace (S (S (length axes)) - 1)%nat with (S (length axes)) by lia.
    destruct HB as [HB|HB]; [discriminate|].
    destruct (IH m) as (m' & M1 & M2); auto.
    + intros x X. apply A. right; assumption.
    + unfold ax; discriminate.
    + destruct axes as [|a3 axes]; [left; reflexivity|right]. cbn [length] in *.
      replace (S (S (length axes)) - 2)%nat with (length axes) by lia.
      cbn [growth] in HB. pose proof (growth1_ge (growth (length axes) 2)). pose proof (growth_ge (length axes) 2). lia.
    + apply (fwd_axis_bounded B a b); auto; apply A; left; reflexivity.
    + replace (S (length axes) - 1)%nat with (length axes) in M2 by lia.
      pose proof (growth_ge (length axes) 2).
      destruct (inv_axis B (growth (length axes) 2) a b m m') as (b' & B1 & B3); auto; try lia.
      * apply A; left; reflexivity.
      * exists b'. split; [|assumption]. cbn [rev]. apply along_all_app. exists m'. split; [assumption|].
        apply along_one. assumption.
Qed.

Lemma seq_lt a : In a (seq 0 d) -> (a < d)%nat.
Proof. intros I. apply in_seq in I. lia. Qed.

Lemma fwd_xform_ok B b : length b = (4 ^ d)%nat -> 2 <= B <= H - 1 -> bounded B b ->
  exists c, fwd_xform P d b = Some c /\ bounded B c /\ length c = (4 ^ d)%nat.
Proof.
  intros L HB F. destruct (fwd_axes B (seq 0 d) b seq_lt L HB F) as (c & C1 & C2 & C3).
  exists c. conjs; auto. apply fwd_along; assumption.
Qed.

Lemma inv_xform_close B E b c c' : length b = (4 ^ d)%nat -> 2 <= B -> 0 <= E ->
  B + 2 * growth (d - 1) E + 2 <= H -> bounded B b -> fwd_xform P d b = Some c -> close E c c' ->
  exists b', inv_xform P d c' = Some b' /\ close (growth d E) b b'.
Proof.
  intros L B2 HE HB F FX CL. pose proof (growth_ge (d - 1) E HE).
  destruct (fwd_axes B (seq 0 d) b seq_lt L ltac:(lia) F) as (c0 & C1 & C2 & C3).
  apply (fwd_along P d b c HD L) in FX.
  destruct (inv_axes B E (seq 0 d) b c c' seq_lt B2 HE) as (b' & B1 & B3); auto.
  - rewrite seq_length. assumption.
  - exists b'. rewrite seq_length in B3. split; [|assumption]. apply inv_along; auto.
    assert (LC : length c = (4 ^ d)%nat) by (apply (fwd_along P d b c HD L) in FX; apply (fwd_along P d b c0 HD L) in C1; congruence).
    rewrite <- LC. symmetry. apply (Forall2_len _ _ _ CL).
Qed.

Lemma inv_xform_exact B b c : length b = (4 ^ d)%nat -> 2 <= B <= H - 1 ->
  (d = 1%nat \/ B + 2 * growth (d - 2) 2 + 2 <= H) -> bounded B b -> fwd_xform P d b = Some c ->
  exists b', inv_xform P d c = Some b' /\ close (growth (d - 1) 2) b b'.
Proof.
  intros L B2 HB F FX.
  destruct (fwd_axes B (seq 0 d) b seq_lt L ltac:(lia) F) as (c0 & C1 & C2 & C3).
  apply (fwd_along P d b c HD L) in FX.
  destruct (inv_axes_exact B (seq 0 d) b c seq_lt B2) as (b' & B1 & B3); auto.
  - destruct d; [lia|discriminate].
  - rewrite seq_length. assumption.
  - exists b'. rewrite seq_length in B3. split; [|assumption]. apply inv_along; auto.
    apply (fwd_along P d b c HD L) in FX; apply (fwd_along P d b c0 HD L) in C1; congruence.
Qed.
End D.
