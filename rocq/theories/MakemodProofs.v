(** Interpolating polynomials and Neville's scheme. *)
From Coq Require Import ZArith QArith List Bool Lia Lqa Setoid.
From Verif Require Import ListAux FdKernels FdProofs FdOutputProofs Marchenko MarchenkoProofs Makemod MakemodSpec.
Import ListNotations.
Local Open Scope Q_scope.

Lemma fold_range_inv {S} (P : Z -> S -> Prop) (f : S -> Z -> S) a b s0 : (a <= b)%Z -> P a s0 -> (forall i s, (a <= i < b)%Z -> P i s -> P (i + 1)%Z (f s i)) -> P b (fold_left f (range a b) s0).
Proof.
  intros H P0 St. assert (G : forall k, (k <= Z.to_nat (b - a))%nat -> P (a + Z.of_nat k)%Z (fold_left f (range a (a + Z.of_nat k)) s0)).
  { induction k as [|k IH]; intros Hk.
    - rewrite range_nil by lia. cbn. now rewrite Z.add_0_r.
    - replace (a + Z.of_nat (Datatypes.S k))%Z with (a + Z.of_nat k + 1)%Z by lia. rewrite range_snoc by lia. rewrite fold_left_app. cbn [fold_left]. apply St; [lia|]. apply IH. lia. }
  specialize (G (Z.to_nat (b - a)) (Nat.le_refl _)). replace (a + Z.of_nat (Z.to_nat (b - a)))%Z with b in G by lia. exact G.
Qed.
Lemma eval_cons a p x : eval (a :: p) x = a + x * eval p x.
Proof. reflexivity. Qed.
(** p(x) - p(r) = (x - r) q(x) *)
Lemma eval_divide p r : exists q, (length q = length p - 1)%nat /\ forall x, eval p x - eval p r == (x - r) * eval q x.
Proof.
  induction p as [|a p (q & L & E)].
  - exists []. split; [reflexivity|]. intros x. cbn. ring.
  - destruct p as [|b p].
    + exists []. split; [reflexivity|]. intros x. cbn. ring.
    + exists (eval (b :: p) r :: q). split; [cbn [length] in *; lia|]. intros x. rewrite (eval_cons a), (eval_cons a (b :: p) r), (eval_cons _ q).
      specialize (E x). transitivity ((x - r) * eval (b :: p) r + x * (eval (b :: p) x - eval (b :: p) r)); [ring|]. rewrite E. ring.
Qed.
Lemma eval_roots rs : forall p, (length p <= length rs)%nat -> (forall i j, (i < j < length rs)%nat -> ~ nth i rs 0 == nth j rs 0) -> (forall r, In r rs -> eval p r == 0) -> forall x, eval p x == 0.
Proof.
  induction rs as [|r rs IH]; intros p L D R x; [destruct p; [reflexivity|cbn in L; lia]|].
  destruct p as [|a p]; [reflexivity|]. destruct (eval_divide (a :: p) r) as (q & Lq & E).
  assert (Z : forall y, eval q y == 0).
  { apply IH.
    - cbn [length] in *. lia.
    - intros i j Hij. exact (D (S i) (S j) ltac:(cbn [length]; lia)).
    - intros s Hs. destruct (In_nth rs s 0 Hs) as (j & Hj & <-). pose proof (D 0%nat (S j) ltac:(cbn [length]; lia)) as N. cbn [nth] in N.
      specialize (E (nth j rs 0)). rewrite (R (nth j rs 0)) in E by (right; apply nth_In; lia). rewrite (R r) in E by now left.
      assert (P : (nth j rs 0 - r) * eval q (nth j rs 0) == 0) by (rewrite <- E; ring). apply Qmult_integral in P. destruct P as [P|P]; [|exact P].
      exfalso. apply N. lra. }
  specialize (E x). rewrite (Z x), (R r) in E by now left. rewrite Qmult_0_r in E. lra.
Qed.
Definition padd (p q : list Q) : list Q := map (fun k => nth k p 0 + nth k q 0) (seq 0 (Nat.max (length p) (length q))).
Lemma eval_padd_aux p : forall q, exists r, (length r = Nat.max (length p) (length q))%nat /\ forall x, eval r x == eval p x + eval q x.
Proof.
  induction p as [|a p IH]; intros q.
  - exists q. split; [reflexivity|]. intros x. cbn [eval fold_right]. ring.
  - destruct q as [|b q].
    + exists (a :: p). split; [reflexivity|]. intros x. cbn [eval fold_right]. ring.
    + destruct (IH q) as (r & L & E). exists (a + b :: r). split; [cbn [length]; lia|]. intros x. rewrite !eval_cons, E. ring.
Qed.
Lemma eval_scale p k : exists r, length r = length p /\ forall x, eval r x == k * eval p x.
Proof.
  induction p as [|a p (r & L & E)]; [exists []; split; [reflexivity|]; intros x; cbn; ring|].
  exists (k * a :: r). split; [cbn [length]; lia|]. intros x. rewrite !eval_cons, E. ring.
Qed.
(** a + b x times p *)
Lemma eval_linear p a b : exists r, length r = S (length p) /\ forall x, eval r x == (a + b * x) * eval p x.
Proof.
  destruct (eval_scale p a) as (r1 & L1 & E1). destruct (eval_scale p b) as (r2 & L2 & E2).
  destruct (eval_padd_aux r1 (0 :: r2)) as (r & L & E). exists r. split; [rewrite L; cbn [length]; lia|]. intros x. rewrite E, eval_cons, E1, E2. ring.
Qed.

Section NEVILLE.
Variables (xa ya : Z -> Q).
(** the polynomial through the points i..i+m *)
Fixpoint nev (m : nat) (i : Z) (x : Q) : Q :=
  match m with
  | O => ya i
  | S m => ((x - xa (i + Z.of_nat (S m))%Z) * nev m i x + (xa i - x) * nev m (i + 1) x) / (xa i - xa (i + Z.of_nat (S m))%Z)
  end.
Definition apart (i : Z) (m : nat) : Prop := forall a b, (i <= a < b)%Z -> (b <= i + Z.of_nat m)%Z -> ~ xa a == xa b.
Lemma apart_den i m : apart i (S m) -> ~ xa i - xa (i + Z.of_nat (S m))%Z == 0.
Proof. intros H E. apply (H i (i + Z.of_nat (S m))%Z); [lia|lia|]. lra. Qed.
Lemma apart_l i m : apart i (S m) -> apart i m. Proof. intros H a b H1 H2. apply H; lia. Qed.
Lemma apart_r i m : apart i (S m) -> apart (i + 1) m. Proof. intros H a b H1 H2. apply H; lia. Qed.
Global Instance nev_proper m i : Morphisms.Proper (Morphisms.respectful Qeq Qeq) (nev m i).
Proof. revert i. induction m as [|m IH]; intros i x y E; cbn [nev]; [reflexivity|]. rewrite (IH i x y E), (IH (i + 1)%Z x y E), E. reflexivity. Qed.
Lemma nev_knot m : forall i, apart i m -> forall j, (i <= j <= i + Z.of_nat m)%Z -> nev m i (xa j) == ya j.
Proof.
  induction m as [|m IH]; intros i A j Hj.
  - cbn. replace j with i by lia. reflexivity.
  - cbn [nev]. pose proof (apart_den i m A) as D. 
    assert (C : (j = i \/ j = i + Z.of_nat (S m) \/ i + 1 <= j <= i + Z.of_nat m)%Z) by lia. destruct C as [->|[->|C]].
    + rewrite (IH i (apart_l i m A) i) by lia. field. exact D.
    + rewrite (IH (i + 1)%Z (apart_r i m A) (i + Z.of_nat (S m))%Z) by lia. field. exact D.
    + rewrite (IH i (apart_l i m A) j), (IH (i + 1)%Z (apart_r i m A) j) by lia. field. exact D.
Qed.
Lemma nev_poly m : forall i, exists p, length p = S m /\ forall x, eval p x == nev m i x.
Proof.
  induction m as [|m IH]; intros i.
  - exists [ya i]. split; [reflexivity|]. intros x. cbn. ring.
  - destruct (IH i) as (p & Lp & Ep). destruct (IH (i + 1)%Z) as (q & Lq & Eq).
    set (e := xa (i + Z.of_nat (S m))%Z). set (w := / (xa i - e)).
    destruct (eval_linear p (- e * w) w) as (p' & Lp' & Ep'). destruct (eval_linear q (xa i * w) (- w)) as (q' & Lq' & Eq').
    destruct (eval_padd_aux p' q') as (r & Lr & Er). exists r. split; [lia|]. intros x. rewrite Er, Ep', Eq', Ep, Eq. cbn [nev]. fold e. unfold Qdiv. fold w. ring.
Qed.
(** differences of neighbouring polynomials *)
Definition dc (k : nat) (i : Z) (x : Q) : Q := match k with O => ya i | S k' => nev k i x - nev k' i x end.
Definition dd (k : nat) (i : Z) (x : Q) : Q := match k with O => ya i | S k' => nev k i x - nev k' (i + 1) x end.
Lemma dc_dd k i x : dc k (i + 1) x - dd k i x == nev k (i + 1) x - nev k i x.
Proof. destruct k; cbn [dc dd]; [reflexivity|]. cbn [nev]. ring. Qed.

Variables (n : Z) (x : Q).
Definition row_ok (k : nat) (c d : Z -> Q) : Prop := forall i, (1 <= i <= n - Z.of_nat k)%Z -> c i == dc k i x /\ d i == dd k i x.
Lemma row_step k c d : (1 <= n - Z.of_nat (S k))%Z -> distinct xa n -> row_ok k c d ->
  exists c' d', polint_row xa n x (Z.of_nat (S k)) (Some (c, d)) = Some (c', d') /\ row_ok (S k) c' d'.
Proof.
  intros Hk D R. unfold polint_row.
  match goal with |- exists c' d', fold_left ?f ?r ?s = _ /\ _ => 
    assert (H : exists c' d', fold_left f r s = Some (c', d') /\ (forall i, (1 <= i < n - Z.of_nat (S k) + 1)%Z -> c' i == dc (S k) i x /\ d' i == dd (S k) i x) /\ (forall i, (n - Z.of_nat (S k) + 1 <= i)%Z -> c' i = c i /\ d' i = d i)) end.
  { apply (fold_range_inv (fun j s => exists c' d', s = Some (c', d') /\ (forall i, (1 <= i < j)%Z -> c' i == dc (S k) i x /\ d' i == dd (S k) i x) /\ (forall i, (j <= i)%Z -> c' i = c i /\ d' i = d i))).
    - lia.
    - exists c, d. split; [reflexivity|]. split; [intros i Hi; lia|]. intros i _. split; reflexivity.
    - intros i s Hi (c' & d' & -> & A1 & A2).
      assert (De : Qeq_bool (xa i - x - (xa (i + Z.of_nat (S k))%Z - x)) 0 = false).
      { apply not_true_iff_false. intros E. apply Qeq_bool_iff in E. apply (D i (i + Z.of_nat (S k))%Z); [lia|lia|lra]. }
      rewrite De. eexists _, _. split; [reflexivity|].
      assert (Nz : ~ xa i - xa (i + Z.of_nat (S k))%Z == 0) by (intros E; apply (D i (i + Z.of_nat (S k))%Z); [lia|lia|lra]).
      assert (Nz' : ~ xa i - x - (xa (i + Z.of_nat (S k))%Z - x) == 0) by (intros E; apply Nz; lra).
      split.
      + intros i' Hi'. unfold upd. destruct (Z.eqb_spec i' i) as [->|Ne]; [|apply A1; lia].
        destruct (A2 (i + 1)%Z ltac:(lia)) as [E1 _]. destruct (A2 i ltac:(lia)) as [_ E2]. rewrite E1, E2.
        destruct (R (i + 1)%Z ltac:(lia)) as [R1 _]. destruct (R i ltac:(lia)) as [_ R2].
        assert (W : c (i + 1)%Z - d i == nev k (i + 1) x - nev k i x) by (rewrite R1, R2; apply dc_dd).
        rewrite W. cbn [dc dd nev]. split; field; (split; assumption) || assumption.
      + intros i' Hi'. unfold upd. rewrite (proj2 (Z.eqb_neq i' i)) by lia. apply A2. lia. }
  destruct H as (c' & d' & E & A1 & _). exists c', d'. split; [exact E|]. intros i Hi. apply A1. lia.
Qed.
Definition last_poly (k : nat) (dy : Q) (y : Q) : Prop := match k with O => True | S k' => exists i, (1 <= i)%Z /\ (i + Z.of_nat k' <= n)%Z /\ dy == y - nev k' i x end.
Lemma nearest_range : (1 <= n)%Z -> (1 <= nearest xa n x <= n)%Z.
Proof.
  intros Hn. unfold nearest. apply (fold_range_inv (fun j (s : Z * Q) => (1 <= fst s <= n)%Z)); [lia|cbn; lia|].
  intros i s Hi IH. cbv zeta. destruct (Qltb _ _); [cbn [fst]; lia|exact IH].
Qed.
Lemma polint_ok dy0 : (1 <= n)%Z -> distinct xa n -> exists y dy, polint xa ya n x dy0 = Some (y, dy) /\ y == nev (Z.to_nat (n - 1)) 1 x /\ (n = 1%Z -> dy = dy0) /\
  ((1 < n)%Z -> dy == y - nev (Z.to_nat (n - 2)) 1 x \/ dy == y - nev (Z.to_nat (n - 2)) 2 x).
Proof.
  intros Hn D. unfold polint. pose proof (nearest_range Hn) as Hs. set (ns := nearest xa n x) in *. clearbody ns.
  match goal with |- context [fold_left ?f ?r ?s] =>
    assert (H : exists c d y dy ns', fold_left f r s = Some (c, d, y, dy, ns') /\ (0 <= ns')%Z /\ (ns' + n <= n)%Z /\ row_ok (Z.to_nat (n - 1)) c d /\ y == nev (Z.to_nat (n - 1)) (ns' + 1) x /\ (n = 1%Z -> dy = dy0) /\
       ((1 < n)%Z -> exists i, (i = ns' + 1 \/ i = ns' + 2)%Z /\ dy == y - nev (Z.to_nat (n - 2)) i x)) end.
  { apply (fold_range_inv (fun m s => exists c d y dy ns', s = Some (c, d, y, dy, ns') /\ (0 <= ns')%Z /\ (ns' + m <= n)%Z /\ row_ok (Z.to_nat (m - 1)) c d /\ y == nev (Z.to_nat (m - 1)) (ns' + 1) x /\ (m = 1%Z -> dy = dy0) /\
       ((1 < m)%Z -> exists i, (i = ns' + 1 \/ i = ns' + 2)%Z /\ dy == y - nev (Z.to_nat (m - 2)) i x))).
    - lia.
    - exists ya, ya, (ya ns), dy0, (ns - 1)%Z. split; [reflexivity|]. split; [lia|]. split; [lia|]. split.
      + intros i Hi. split; reflexivity.
      + split; [cbn; now replace (ns - 1 + 1)%Z with ns by lia|]. split; [reflexivity|lia].
    - intros m s Hm (c & d & y & dy & ns' & -> & N0 & N1 & R & Ey & _ & _). unfold polint_step.
      destruct (row_step (Z.to_nat (m - 1)) c d) as (c' & d' & E & R'); [lia|assumption|assumption|].
      replace (Z.of_nat (S (Z.to_nat (m - 1)))) with m in E by lia. rewrite E. clear E.
      replace (S (Z.to_nat (m - 1))) with (Z.to_nat (m + 1 - 1)) in R' by lia.
      assert (Sm : Z.to_nat (m + 1 - 1) = S (Z.to_nat (m - 1))) by lia.
      destruct (Z.ltb_spec (2 * ns') (n - m)).
      + exists c', d', (y + c' (ns' + 1)%Z), (c' (ns' + 1)%Z), ns'. split; [reflexivity|]. split; [lia|]. split; [lia|]. split; [exact R'|].
        destruct (R' (ns' + 1)%Z ltac:(lia)) as [Rc _]. rewrite Sm in *. unfold dc in Rc. split; [rewrite Rc, Ey; ring|]. split; [lia|]. intros _. exists (ns' + 1)%Z. split; [now left|].
        replace (m + 1 - 2)%Z with (m - 1)%Z by lia. rewrite <- Ey. ring.
      + exists c', d', (y + d' ns'), (d' ns'), (ns' - 1)%Z. split; [reflexivity|]. split; [lia|]. split; [lia|]. split; [exact R'|].
        destruct (R' ns' ltac:(lia)) as [_ Rd]. rewrite Sm in *. unfold dd in Rd. replace (ns' - 1 + 1)%Z with ns' by lia. split; [rewrite Rd, Ey; ring|]. split; [lia|]. intros _. exists (ns' + 1)%Z. split; [right; lia|].
        replace (m + 1 - 2)%Z with (m - 1)%Z by lia. rewrite <- Ey. ring. }
  destruct H as (c & d & y & dy & ns' & -> & N0 & N1 & _ & Ey & E1 & E2). exists y, dy. split; [reflexivity|].
  assert (ns' = 0)%Z by lia. subst ns'. split; [exact Ey|]. split; [exact E1|]. intros H. destruct (E2 H) as (i & [-> | ->] & E); [left|right]; exact E.
Qed.
(** equal abscissae are noticed *)
Lemma row_exits c d m i : (1 <= i <= n - m)%Z -> xa i == xa (i + m)%Z -> polint_row xa n x m (Some (c, d)) = None.
Proof.
  intros Hi E. unfold polint_row. rewrite (range_split 1 i) by lia. rewrite fold_left_app.
  match goal with |- fold_left ?f _ ?s = _ => generalize s end. intros s.
  rewrite (range_split i (i + 1)) by lia. rewrite fold_left_app. rewrite (range_snoc i i), (range_nil i i) by lia. cbn [app fold_left].
  match goal with |- fold_left ?f _ ?s = _ => assert (Ns : s = None) end.
  { destruct s as [[c' d']|]; [|reflexivity]. replace (Qeq_bool _ 0) with true; [reflexivity|]. symmetry. apply Qeq_bool_iff. lra. }
  rewrite Ns. clear. generalize (range (i + 1) (n - m + 1)). induction l as [|a l IH]; [reflexivity|exact IH].
Qed.
Lemma polint_exits dy0 : (exists i j, (1 <= i < j)%Z /\ (j <= n)%Z /\ xa i == xa j) -> polint xa ya n x dy0 = None.
Proof.
  intros (i & j & Hij & Hj & E). unfold polint. set (ns := nearest xa n x). clearbody ns.
  rewrite (range_split 1 (j - i)) by lia. rewrite fold_left_app.
  match goal with |- context [fold_left ?f (range (j - i) n) ?s] => generalize s end. intros s.
  rewrite (range_split (j - i) (j - i + 1)) by lia. rewrite fold_left_app. rewrite (range_snoc (j - i) (j - i)), (range_nil (j - i) (j - i)) by lia. cbn [app fold_left].
  assert (Ns : polint_step xa n x s (j - i) = None).
  { destruct s as [[[[[c d] y] dy] ns']|]; [|reflexivity]. unfold polint_step. rewrite (row_exits c d (j - i) i); [reflexivity|lia|]. now replace (i + (j - i))%Z with j by lia. }
  rewrite Ns. assert (F : forall l, fold_left (polint_step xa n x) l None = None) by (induction l as [|a l IH]; [reflexivity|exact IH]). now rewrite F.
Qed.
End NEVILLE.

(** a polynomial of degree < n is determined by n points *)
Lemma through_unique xa ya first last p q : (forall a b, (first <= a < b)%Z -> (b <= last)%Z -> ~ xa a == xa b) -> (first <= last)%Z ->
  through xa ya first last p -> through xa ya first last q -> forall x, eval p x == eval q x.
Proof.
  intros D Hl (Lp & Ep) (Lq & Eq) x. destruct (eval_scale q (-1)) as (q' & Lq' & Eq'). destruct (eval_padd_aux p q') as (r & Lr & Er).
  assert (Z : eval r x == 0).
  { apply (eval_roots (map xa (range first (last + 1)))).
    - rewrite map_length. unfold range. rewrite map_length, seq_length. lia.
    - rewrite map_length. unfold range at 1. rewrite map_length, seq_length. intros i j Hij.
      assert (N : forall k, (k < Z.to_nat (last + 1 - first))%nat -> nth k (map xa (range first (last + 1))) 0 = xa (first + Z.of_nat k)%Z).
      { intros k Hk. unfold range. rewrite map_map. rewrite (nth_indep _ 0 (xa (first + Z.of_nat 0)%Z)) by (rewrite map_length, seq_length; exact Hk).
        rewrite (map_nth (fun k => xa (first + Z.of_nat k)%Z)). rewrite seq_nth by exact Hk. reflexivity. }
      rewrite !N by lia. apply D; lia.
    - intros s Hs. apply in_map_iff in Hs. destruct Hs as (i & <- & Hi). apply in_range in Hi. rewrite Er, Eq', Ep, Eq by lia. ring. }
  rewrite Er, Eq' in Z. lra.
Qed.
