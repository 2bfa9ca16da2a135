(** The d-dimensional transforms act along every line of every axis. *)
From Coq Require Import ZArith List Bool Arith Lia.
From Verif Require Import ListAux Bitstream BitstreamProofs ZfpXform BlockSpec LiftProofs.
Import ListNotations.
Local Open Scope Z_scope.

Definition idx (l : nat * nat) : list nat :=
  let '(off, s) := l in [off; off + s; off + 2 * s; off + 3 * s]%nat.

Lemma nth_error_some {A} (b : list A) i d : (i < length b)%nat -> nth_error b i = Some (nth i b d).
Proof. intros. apply nth_error_nth'. assumption. Qed.

Lemma lift_at_spec f off s b : (1 <= s)%nat -> (off + 3 * s < length b)%nat ->
  lift_at f (off, s) b =
  match f (line b off s) with
  | Some (x, y, z, w) =>
     Some (upd (upd (upd (upd b (off + 3 * s) w) (off + 2 * s) z) (off + s) y) off x)
  | None => None
  end.
Proof.
  intros. unfold lift_at.
  rewrite !(nth_error_some _ _ 0) by lia. cbn [bind]. unfold line.
  destruct (f _) as [[[[x y] z] w]|]; reflexivity.
Qed.

Lemma lift_at_some f off s b q : (1 <= s)%nat -> (off + 3 * s < length b)%nat ->
  f (line b off s) = Some q ->
  exists c, lift_at f (off, s) b = Some c /\ length c = length b /\ line c off s = q /\
    forall j, ~ In j (idx (off, s)) -> nth j c 0 = nth j b 0.
Proof.
  intros S L F. rewrite lift_at_spec, F by assumption. destruct q as [[[x y] z] w].
  eexists. conjs; [reflexivity|now rewrite !upd_length| |].
  - unfold line. rewrite !upd_nth, !upd_length.
    repeat match goal with
    | |- context [(?a =? ?b)%nat] => destruct (Nat.eqb_spec a b); try lia
    | |- context [(?a <? ?b)%nat] => destruct (Nat.ltb_spec a b); try lia
    end; reflexivity.
  - intros j N. cbn [idx In] in N. rewrite !upd_nth, !upd_length.
    repeat match goal with
    | |- context [(?a =? ?b)%nat] => destruct (Nat.eqb_spec a b); [exfalso; apply N; lia|]
    end. reflexivity.
Qed.

Lemma line_ext b c off s : (forall j, In j (idx (off, s)) -> nth j c 0 = nth j b 0) ->
  line c off s = line b off s.
Proof. intros E. unfold line. cbn [idx In] in E. rewrite !E by auto. reflexivity. Qed.

Lemma NoDup_app {A} (a b : list A) : NoDup (a ++ b) -> NoDup a /\ NoDup b /\ (forall x, In x a -> ~ In x b).
Proof.
  induction a as [|x a IH]; cbn; intros N.
  - conjs; [constructor|assumption|tauto].
  - inversion N as [|? ? X Y]; subst. destruct (IH Y) as (U & V & T). conjs; auto.
    + constructor; auto. intros Z. apply X, in_or_app; auto.
    + intros z [<-|Z]; auto. intros Q. apply X, in_or_app; auto.
Qed.

Lemma lift_lines_spec f L b :
  (forall l, In l L -> (1 <= snd l)%nat /\ (fst l + 3 * snd l < length b)%nat) ->
  NoDup (flat_map idx L) ->
  (forall l, In l L -> exists q, f (line b (fst l) (snd l)) = Some q) ->
  exists c, lift_lines f L b = Some c /\ length c = length b /\
    (forall l, In l L -> f (line b (fst l) (snd l)) = Some (line c (fst l) (snd l))) /\
    (forall j, ~ In j (flat_map idx L) -> nth j c 0 = nth j b 0).
Proof.
  revert b; induction L as [|[off s] L IH]; intros b R N F.
  - exists b. cbn. conjs; auto. tauto.
  - cbn [flat_map] in N. apply NoDup_app in N as (N1 & N2 & N3).
    destruct (R (off, s) (or_introl eq_refl)) as [R1 R2]. cbn [fst snd] in *.
    destruct (F (off, s) (or_introl eq_refl)) as [q Fq]. cbn [fst snd] in *.
    destruct (lift_at_some f off s b q R1 R2 Fq) as (c1 & A1 & A2 & A3 & A4).
    assert (EL : forall l, In l L -> line c1 (fst l) (snd l) = line b (fst l) (snd l)).
    { intros [o t] I. apply line_ext. intros j J. apply A4. intros Z. apply (N3 j Z).
      apply in_flat_map. exists (o, t). auto. }
    destruct (IH c1) as (c & B1 & B2 & B3 & B4).
    + intros l I. rewrite A2. apply R. right. assumption.
    + assumption.
    + intros l I. rewrite EL by assumption. apply F. right; assumption.
    + exists c. cbn [lift_lines]. rewrite A1. cbn [bind]. conjs; [assumption|lia| |].
      * intros l [<-|I].
        -- cbn [fst snd]. rewrite Fq, <- A3. f_equal. symmetry. apply line_ext.
           intros j J. apply B4. auto.
        -- rewrite <- EL by assumption. apply B3. assumption.
      * intros j J. cbn [flat_map] in J. rewrite in_app_iff in J. rewrite B4 by tauto. apply A4. tauto.
Qed.

(** failing line: the whole pass fails *)
Lemma lift_lines_lines f L b c :
  (forall l, In l L -> (1 <= snd l)%nat /\ (fst l + 3 * snd l < length b)%nat) ->
  NoDup (flat_map idx L) -> lift_lines f L b = Some c ->
  forall l, In l L -> exists q, f (line b (fst l) (snd l)) = Some q.
Proof.
  revert b; induction L as [|[off s] L IH]; intros b R N F l I; [destruct I|].
  cbn [flat_map] in N. apply NoDup_app in N as (N1 & N2 & N3).
  destruct (R (off, s) (or_introl eq_refl)) as [R1 R2]. cbn [fst snd] in *.
  cbn [lift_lines] in F.
  destruct (f (line b off s)) as [q|] eqn:Fq.
  2:{ rewrite lift_at_spec, Fq in F by assumption. discriminate. }
  destruct (lift_at_some f off s b q R1 R2 Fq) as (c1 & A1 & A2 & A3 & A4).
  rewrite A1 in F. cbn [bind] in F.
  destruct I as [<-|I]; [exists q; assumption|].
  assert (EL : line c1 (fst l) (snd l) = line b (fst l) (snd l)).
  { destruct l as [o t]. apply line_ext. intros j J. apply A4. intros Z. apply (N3 j Z).
    apply in_flat_map. exists (o, t). auto. }
  rewrite <- EL. apply (IH c1); auto. intros l' I'. rewrite A2. apply R. right. assumption.
Qed.

Fixpoint nodupb (l : list nat) : bool :=
  match l with [] => true | x :: r => negb (existsb (Nat.eqb x) r) && nodupb r end.
Lemma nodupb_ok l : nodupb l = true -> NoDup l.
Proof.
  induction l; cbn; [constructor|]. intros H; apply andb_prop in H as [A B]. constructor; auto.
  intros I. apply negb_true_iff in A. rewrite <- not_true_iff_false in A. apply A.
  apply existsb_exists. exists a. split; [assumption|apply Nat.eqb_refl].
Qed.

Definition lines_ok (d axis : nat) (L : list (nat * nat)) : bool :=
  forallb (fun l => ((snd l =? 4 ^ axis) && (fst l + 3 * snd l <? 4 ^ d) && (fst l / 4 ^ axis mod 4 =? 0))%nat) L &&
  nodupb (flat_map idx L) &&
  forallb (fun i => existsb (Nat.eqb i) (flat_map idx L)) (seq 0 (4 ^ d)) &&
  forallb (fun off => negb (off / 4 ^ axis mod 4 =? 0)%nat || existsb (fun l => (fst l =? off)%nat) L) (seq 0 (4 ^ d)).

Lemma nth_ext0 (a b : list Z) : length a = length b -> (forall i, (i < length a)%nat -> nth i a 0 = nth i b 0) -> a = b.
Proof. intros. apply (nth_ext a b 0 0); assumption. Qed.

Lemma pass_along f d axis L b c : lines_ok d axis L = true -> length b = (4 ^ d)%nat ->
  (lift_lines f L b = Some c <-> along f d axis b c).
Proof.
  intros K LB. unfold lines_ok in K.
  apply andb_prop in K as [K K4]. apply andb_prop in K as [K K3]. apply andb_prop in K as [K1 K2].
  apply nodupb_ok in K2. rewrite forallb_forall in K1, K3, K4.
  assert (S0 : (1 <= 4 ^ axis)%nat) by (apply Nat.neq_0_lt_0, Nat.pow_nonzero; lia).
  assert (R : forall l, In l L -> (1 <= snd l)%nat /\ (fst l + 3 * snd l < length b)%nat).
  { intros l I. specialize (K1 l I). apply andb_prop in K1 as [K1 _]. apply andb_prop in K1 as [X Y].
    apply Nat.eqb_eq in X. apply Nat.ltb_lt in Y. lia. }
  assert (FND : forall off, (off < 4 ^ d)%nat -> (off / 4 ^ axis mod 4 = 0)%nat -> In (off, 4 ^ axis)%nat L).
  { intros off O Z. specialize (K4 off). rewrite in_seq in K4. specialize (K4 ltac:(lia)).
    rewrite Z in K4. cbn [Nat.eqb negb orb] in K4. apply existsb_exists in K4 as ((o & t) & I & E).
    apply Nat.eqb_eq in E. cbn in E. subst o. specialize (K1 _ I). apply andb_prop in K1 as [K1 _].
    apply andb_prop in K1 as [X _]. apply Nat.eqb_eq in X. cbn [snd] in X. subst t. assumption. }
  assert (COV : forall j, (j < 4 ^ d)%nat -> In j (flat_map idx L)).
  { intros j J. specialize (K3 j). rewrite in_seq in K3. specialize (K3 ltac:(lia)).
    apply existsb_exists in K3 as (x & I & E). apply Nat.eqb_eq in E. subst. assumption. }
  split.
  - intros E.
    destruct (lift_lines_spec f L b R K2 (lift_lines_lines f L b c R K2 E)) as (c' & A1 & A2 & A3 & _).
    assert (c' = c) by congruence. subst c'.
    unfold along. conjs; [assumption|lia|].
    intros off O Z. apply (A3 (off, 4 ^ axis)%nat). auto.
  - intros (_ & LC & A).
    assert (AL : forall l, In l L -> f (line b (fst l) (snd l)) = Some (line c (fst l) (snd l))).
    { intros l I. specialize (K1 l I). destruct (R l I) as [_ RR]. apply andb_prop in K1 as [K1 Z]. apply andb_prop in K1 as [X _].
      apply Nat.eqb_eq in X, Z. rewrite X. apply A; [lia|assumption]. }
    destruct (lift_lines_spec f L b R K2) as (c' & A1 & A2 & A3 & _).
    { intros l I. eexists. apply AL. assumption. }
    rewrite A1. f_equal. apply nth_ext0; [lia|].
    intros j J. specialize (COV j ltac:(lia)). apply in_flat_map in COV as ((o & t) & I & JJ).
    specialize (AL _ I). rewrite (A3 _ I) in AL. cbn [fst snd] in AL. unfold line in AL.
    apply some4 in AL. cbn [idx In] in JJ. destruct AL as (Q1 & Q2 & Q3 & Q4).
    destruct JJ as [<-|[<-|[<-|[<-|[]]]]]; assumption.
Qed.

Lemma along_length f d a b c : along f d a b c -> length c = (4 ^ d)%nat.
Proof. intros (_ & H & _). exact H. Qed.
Lemma along_length0 f d a b c : along f d a b c -> length b = (4 ^ d)%nat.
Proof. intros (H & _). exact H. Qed.

Lemma along_one f d a b c : along_all f d [a] b c <-> along f d a b c.
Proof. cbn. split; [intros (m & A & <-); exact A|intros A; exists c; auto]. Qed.

Lemma bind_some {A B} (o : option A) (g : A -> option B) r :
  bind o g = Some r <-> exists a, o = Some a /\ g a = Some r.
Proof.
  destruct o; cbn; split.
  - intros; eexists; eauto.
  - intros (a' & [= <-] & E); exact E.
  - discriminate.
  - intros (a' & E & _); discriminate.
Qed.

Ltac one_pass :=
  rewrite along_one; apply pass_along; [vm_compute; reflexivity|assumption].
Lemma fwd1_along P b c : length b = 4%nat -> (fwd_xform1 P b = Some c <-> along_all (fwd_lift P) 1 [0]%nat b c).
Proof. intros. unfold fwd_xform1. one_pass. Qed.
Lemma inv1_along P b c : length b = 4%nat -> (inv_xform1 P b = Some c <-> along_all (inv_lift P) 1 [0]%nat b c).
Proof. intros. unfold inv_xform1. one_pass. Qed.

(** two maps that chain passes agree *)
Lemma chain f d a L (g : list Z -> option (list Z)) axes b c :
  lines_ok d a L = true -> length b = (4 ^ d)%nat ->
  (forall m, length m = (4 ^ d)%nat -> (g m = Some c <-> along_all f d axes m c)) ->
  (bind (lift_lines f L b) g = Some c <-> along_all f d (a :: axes) b c).
Proof.
  intros K LB G. rewrite bind_some. cbn [along_all]. split.
  - intros (m & A & R). apply (pass_along f d a L b m K LB) in A. exists m. split; [assumption|].
    apply G; [apply (along_length _ _ _ _ _ A)|assumption].
  - intros (m & A & R). exists m. split; [apply (pass_along f d a L b m K LB); assumption|].
    apply G; [apply (along_length _ _ _ _ _ A)|assumption].
Qed.

Ltac chains := repeat (apply chain; [vm_compute; reflexivity|assumption|intros ? ?]);
  rewrite along_one; apply pass_along; [vm_compute; reflexivity|assumption].

Lemma fwd2_along P b c : length b = 16%nat -> (fwd_xform2 P b = Some c <-> along_all (fwd_lift P) 2 [0; 1]%nat b c).
Proof. intros. unfold fwd_xform2. chains. Qed.
Lemma inv2_along P b c : length b = 16%nat -> (inv_xform2 P b = Some c <-> along_all (inv_lift P) 2 [1; 0]%nat b c).
Proof. intros. unfold inv_xform2. chains. Qed.
Lemma fwd3_along P b c : length b = 64%nat -> (fwd_xform3 P b = Some c <-> along_all (fwd_lift P) 3 [0; 1; 2]%nat b c).
Proof. intros. unfold fwd_xform3. chains. Qed.
Lemma inv3_along P b c : length b = 64%nat -> (inv_xform3 P b = Some c <-> along_all (inv_lift P) 3 [2; 1; 0]%nat b c).
Proof. intros. unfold inv_xform3. chains. Qed.
Lemma fwd4_along P b c : length b = 256%nat -> (fwd_xform4 P b = Some c <-> along_all (fwd_lift P) 4 [0; 1; 2; 3]%nat b c).
Proof. intros. unfold fwd_xform4. chains. Qed.
Lemma inv4_along P b c : length b = 256%nat -> (inv_xform4 P b = Some c <-> along_all (inv_lift P) 4 [3; 2; 1; 0]%nat b c).
Proof. intros. unfold inv_xform4. chains. Qed.

Lemma fwd_along P d b c : (1 <= d <= 4)%nat -> length b = (4 ^ d)%nat ->
  (fwd_xform P d b = Some c <-> along_all (fwd_lift P) d (seq 0 d) b c).
Proof.
  intros D L. assert (d = 1 \/ d = 2 \/ d = 3 \/ d = 4)%nat as [->|[->|[->| ->]]] by lia;
  [apply fwd1_along|apply fwd2_along|apply fwd3_along|apply fwd4_along]; assumption.
Qed.
Lemma inv_along P d b c : (1 <= d <= 4)%nat -> length b = (4 ^ d)%nat ->
  (inv_xform P d b = Some c <-> along_all (inv_lift P) d (rev (seq 0 d)) b c).
Proof.
  intros D L. assert (d = 1 \/ d = 2 \/ d = 3 \/ d = 4)%nat as [->|[->|[->| ->]]] by lia;
  [apply inv1_along|apply inv2_along|apply inv3_along|apply inv4_along]; assumption.
Qed.
