(** General list lemmas. *)
From Coq Require Import ZArith Lia List Bool Arith.
Import ListNotations.

Ltac conjs := repeat match goal with |- _ /\ _ => split end.

Lemma firstn_mono_eq {A} n m (a b : list A) : (n <= m)%nat -> firstn m a = firstn m b -> firstn n a = firstn n b.
Proof.
  intros H E.
  replace n with (min n m) by lia. rewrite <- !firstn_firstn. congruence.
Qed.

Lemma skipn_add {A} n m (a : list A) : skipn (n + m) a = skipn n (skipn m a).
Proof.
  revert a; induction m; intros a.
  - rewrite Nat.add_0_r. reflexivity.
  - rewrite Nat.add_succ_r. destruct a; simpl; [now rewrite skipn_nil|]. apply IHm.
Qed.

Lemma skipn_mono_eq {A} n m (a b : list A) : (n <= m)%nat -> skipn n a = skipn n b -> skipn m a = skipn m b.
Proof.
  intros H E. replace m with (m - n + n)%nat by lia. rewrite !skipn_add. congruence.
Qed.

Lemma app_eq_len {A} (a b c d : list A) : length a = length c -> a ++ b = c ++ d -> a = c /\ b = d.
Proof.
  revert c; induction a; destruct c; simpl; intros L E; try lia; auto.
  injection E as -> E. destruct (IHa c) as [-> ->]; auto.
Qed.

Lemma firstn_plus {A} a b (l : list A) : firstn (a + b) l = firstn a l ++ firstn b (skipn a l).
Proof. revert l; induction a; intros l; [reflexivity|]. destruct l; simpl; [now rewrite firstn_nil|]. f_equal; auto. Qed.

Lemma firstn_app_len {A} (a b : list A) : firstn (length a) (a ++ b) = a.
Proof. rewrite firstn_app, Nat.sub_diag, firstn_all. simpl. apply app_nil_r. Qed.

Lemma skipn_app_len {A} (a b : list A) : skipn (length a) (a ++ b) = b.
Proof. rewrite skipn_app, Nat.sub_diag, skipn_all. reflexivity. Qed.


Lemma nth_firstn_lt {A} (d : A) : forall n i l, (i < n)%nat -> nth i (firstn n l) d = nth i l d.
Proof.
  induction n; intros i l H; [lia|]. destruct l; [reflexivity|]. destruct i; [reflexivity|]. cbn. apply IHn. lia.
Qed.

Lemma nth_skipn_add {A} (d : A) : forall n i l, nth i (skipn n l) d = nth (n + i) l d.
Proof.
  induction n; intros i l; [reflexivity|]. destruct l; [cbn; destruct i; reflexivity|]. cbn. apply IHn.
Qed.
