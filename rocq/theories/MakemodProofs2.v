(** Cubic splines. *)
From Coq Require Import ZArith QArith List Bool Lia Lqa Setoid.
From Verif Require Import ListAux FdKernels FdProofs FdOutputProofs Marchenko MarchenkoProofs Makemod MakemodSpec MakemodProofs.
Import ListNotations.
Local Open Scope Q_scope.

Lemma Qltb_true a b : Qltb a b = true <-> a < b.
Proof. unfold Qltb. rewrite negb_true_iff, <- not_true_iff_false, Qle_bool_iff. split; [intros H; now apply Qnot_le_lt|intros H; now apply Qlt_not_le]. Qed.
Lemma Qltb_false a b : Qltb a b = false <-> b <= a.
Proof. unfold Qltb. rewrite negb_false_iff. apply Qle_bool_iff. Qed.
(** folding downwards *)
Lemma fold_rev_inv {S} (P : Z -> S -> Prop) (f : S -> Z -> S) a b s0 : (a <= b)%Z -> P b s0 -> (forall i s, (a <= i < b)%Z -> P (i + 1)%Z s -> P i (f s i)) -> P a (fold_left f (rev (range a b)) s0).
Proof.
  intros H. remember (Z.to_nat (b - a)) as k eqn:Ek. revert b s0 H Ek. induction k as [|k IH]; intros b s0 H Ek P0 St.
  - rewrite range_nil by lia. cbn. now replace a with b by lia.
  - replace b with (b - 1 + 1)%Z by lia. rewrite range_snoc by lia. rewrite rev_app_distr. cbn [rev app fold_left]. apply IH; try lia.
    + apply St; [lia|]. now replace (b - 1 + 1)%Z with b by lia.
    + intros i s Hi. apply St. lia.
Qed.

Section SPLINE.
Variables (x y : Z -> Q) (n : Z) (yp1 ypn : Q) (a : Z -> Q).
Hypotheses (Hn : (2 <= n)%Z) (Hx : increasing x 1 n).
Let h (k : Z) : Q := x (k + 1)%Z - x k.
Let sl (k : Z) : Q := (y (k + 1)%Z - y k) / h k.
Lemma h_pos k : (1 <= k < n)%Z -> 0 < h k.
Proof. intros H. unfold h. assert (x k < x (k + 1)%Z) by (apply Hx; lia). lra. Qed.
Definition begin_of : at_end := if Qltb huge yp1 then Free else Slope yp1.
Definition finish_of : at_end := if Qltb huge ypn then Free else Slope ypn.

(** elimination: M i = g i * M (i+1) + u i *)
Definition eliminated (g u : Z -> Q) (M : Z -> Q) : Prop := forall i, (1 <= i < n)%Z -> M i == g i * M (i + 1)%Z + u i.
Definition inner (M : Z -> Q) (i : Z) : Prop := h (i - 1) * M (i - 1)%Z + 2 * (h (i - 1) + h i) * M i + h i * M (i + 1)%Z == 6 * (sl i - sl (i - 1)).
Definition first_row (M : Z -> Q) : Prop := if Qltb huge yp1 then M 1%Z == 0 else 2 * M 1%Z + M 2%Z == 6 * (sl 1 - yp1) / h 1.
Definition last_row (M : Z -> Q) : Prop := if Qltb huge ypn then M n == 0 else M (n - 1)%Z + 2 * M n == 6 * (ypn - sl (n - 1)) / h (n - 1).

Definition s_start : (Z -> Q) * (Z -> Q) := if Qltb huge yp1 then (upd a 1 0, upd a 1 0)
            else (upd a 1 (- (1 # 2)), upd a 1 ((3 / (x 2%Z - x 1%Z)) * ((y 2%Z - y 1%Z) / (x 2%Z - x 1%Z) - yp1))).
Lemma forward : let '(g, u) := fold_left (spline_row x y) (range 2 n) s_start in
  (forall i, (1 <= i < n)%Z -> -1 < g i /\ g i <= 0) /\
  forall M, eliminated g u M -> first_row M /\ forall i, (2 <= i < n)%Z -> inner M i.
Proof.
  assert (H : let '(g, u) := fold_left (spline_row x y) (range 2 n) s_start in
    (forall i, (1 <= i < n)%Z -> -1 < g i /\ g i <= 0) /\
    forall M, (forall i, (1 <= i < n)%Z -> M i == g i * M (i + 1)%Z + u i) -> first_row M /\ forall i, (2 <= i < n)%Z -> inner M i).
  { apply (fold_range_inv (fun j s => let '(g, u) := s in (forall i, (1 <= i < j)%Z -> -1 < g i /\ g i <= 0) /\
      forall M, (forall i, (1 <= i < j)%Z -> M i == g i * M (i + 1)%Z + u i) -> first_row M /\ forall i, (2 <= i < j)%Z -> inner M i)).
    - lia.
    - unfold s_start, first_row. destruct (Qltb huge yp1); (split; [intros i Hi; replace i with 1%Z by lia; rewrite upd_same; split; lra|]); intros M E; specialize (E 1%Z ltac:(lia)); rewrite !upd_same in E; (split; [|intros i Hi; lia]).
      + rewrite E. ring.
      + change (1 + 1)%Z with 2%Z in E. pose proof (h_pos 1 ltac:(lia)) as P. unfold h in P |- *. unfold sl, h. change (1 + 1)%Z with 2%Z in *. rewrite E. field. lra.
    - intros i [g u] Hi (B & F). unfold spline_row.
      pose proof (h_pos (i - 1) ltac:(lia)) as P1. pose proof (h_pos i ltac:(lia)) as P2. destruct (B (i - 1)%Z ltac:(lia)) as [G1 G2].
      set (sig := (x i - x (i - 1)%Z) / (x (i + 1)%Z - x (i - 1)%Z)). set (p := sig * g (i - 1)%Z + 2).
      assert (Es : sig * (h (i - 1) + h i) == h (i - 1)).
      { unfold sig, h. replace (i - 1 + 1)%Z with i by lia. field. unfold h in P1, P2. replace (i - 1 + 1)%Z with i in P1 by lia. lra. }
      assert (S1 : 0 < sig) by nra. assert (S2 : sig < 1) by nra.
      assert (Pp : 1 < p) by (unfold p; nra).
      assert (Bi : -1 < (sig - 1) / p /\ (sig - 1) / p <= 0).
      { split; [apply Qlt_shift_div_l; lra|apply Qle_shift_div_r; lra]. }
      split.
      + intros k Hk. destruct (Z.eq_dec k i) as [->|N]; [rewrite upd_same; exact Bi|]. rewrite upd_other by lia. apply B. lia.
      + intros M E. assert (E' : forall k, (1 <= k < i)%Z -> M k == g k * M (k + 1)%Z + u k).
        { intros k Hk. rewrite (E k) by lia. rewrite !upd_other by lia. reflexivity. }
        destruct (F M E') as [F1 F2]. split; [exact F1|]. intros k Hk. destruct (Z.eq_dec k i) as [->|N]; [|apply F2; lia].
        specialize (E i ltac:(lia)). rewrite !upd_same in E. specialize (E' (i - 1)%Z ltac:(lia)). replace (i - 1 + 1)%Z with i in E' by lia.
        unfold inner.
        assert (Q : p * M i == (sig - 1) * M (i + 1)%Z + 6 * (sl i - sl (i - 1)) / (h (i - 1) + h i) - sig * u (i - 1)%Z).
        { rewrite E. unfold sl, h. replace (i - 1 + 1)%Z with i by lia. unfold h in P1, P2. replace (i - 1 + 1)%Z with i in P1 by lia. field. repeat split; lra. }
        assert (H0 : ~ h (i - 1) + h i == 0) by lra. set (D := sl i - sl (i - 1)) in *. set (H := h (i - 1) + h i) in *.
        assert (Q2 : sig * M (i - 1)%Z + 2 * M i + (1 - sig) * M (i + 1)%Z == 6 * D / H) by (unfold p in Q; rewrite E'; lra).
        transitivity (H * (6 * D / H)); [|field; exact H0]. rewrite <- Q2.
        assert (Hi' : h i == (1 - sig) * H) by (unfold H in *; lra). assert (Hi1 : h (i - 1) == sig * H) by lra. rewrite Hi', Hi1. ring. }
  destruct (fold_left _ _ _) as [g u]. exact H.
Qed.
Lemma spline_rows : let M := spline x y n yp1 ypn a in first_row M /\ last_row M /\ forall i, (2 <= i < n)%Z -> inner M i.
Proof.
  intros M. subst M. unfold spline. fold s_start. pose proof forward as F. destruct (fold_left (spline_row x y) (range 2 n) s_start) as [g u]. destruct F as [B F].
  set (e := if Qltb huge ypn then _ else _). destruct e as [qn un] eqn:Ee. cbv zeta.
  set (top := (un - qn * u (n - 1)%Z) / (qn * g (n - 1)%Z + 1)).
  set (M := fold_left _ _ _).
  assert (HM : (forall i, (1 <= i < n)%Z -> M i = g i * M (i + 1)%Z + u i) /\ M n = top).
  { assert (G : (forall i, (1 <= i < n)%Z -> M i = g i * M (i + 1)%Z + u i) /\ M n = top /\ forall i, (i < 1)%Z -> M i = g i).
    { apply (fold_rev_inv (fun j m => (forall i, (j <= i < n)%Z -> m i = g i * m (i + 1)%Z + u i) /\ m n = top /\ forall i, (i < j)%Z -> m i = g i)).
      - lia.
      - split; [intros i Hi; lia|]. split; [apply upd_same|]. intros i Hi. apply upd_other. lia.
      - intros i m Hi (A1 & A2 & A3). split; [|split].
        + intros k Hk. destruct (Z.eq_dec k i) as [->|N].
          * rewrite upd_same. rewrite upd_other by lia. rewrite (A3 i) by lia. reflexivity.
          * rewrite !upd_other by lia. apply A1. lia.
        + rewrite upd_other by lia. exact A2.
        + intros k Hk. rewrite upd_other by lia. apply A3. lia. }
    tauto. }
  destruct HM as [E Et]. clearbody M.
  assert (El : eliminated g u M) by (intros i Hi; rewrite (E i Hi); reflexivity).
  destruct (F M El) as [F1 F2]. split; [exact F1|]. split; [|exact F2].
  unfold last_row. destruct (B (n - 1)%Z ltac:(lia)) as [G1 G2]. specialize (E (n - 1)%Z ltac:(lia)). replace (n - 1 + 1)%Z with n in E by lia.
  subst e. destruct (Qltb huge ypn); injection Ee as <- <-.
  - rewrite Et. unfold top. field.
  - pose proof (h_pos (n - 1) ltac:(lia)) as P. unfold sl, h in *. replace (n - 1 + 1)%Z with n in * by lia. rewrite E, Et. unfold top. field. split; lra.
Qed.

(** the pieces *)
Definition piece (M : Z -> Q) (k : Z) : cubic := mkCubic (y k) (sl k - h k * (2 * M k + M (k + 1)%Z) / 6) (M k / 2) ((M (k + 1)%Z - M k) / (6 * h k)).
Lemma piece_spline M : first_row M -> last_row M -> (forall i, (2 <= i < n)%Z -> inner M i) -> cubic_spline x y n begin_of finish_of (piece M).
Proof.
  intros F L I. unfold cubic_spline. split; [|split; [|split]].
  - intros k Hk. pose proof (h_pos k Hk) as P. change (x (k + 1)%Z - x k) with (h k). unfold value, piece. cbn [k0 k1 k2 k3]. unfold sl. split; [ring|]. field. lra.
  - intros k Hk. pose proof (h_pos k ltac:(lia)) as P. pose proof (h_pos (k + 1) ltac:(lia)) as P'. change (x (k + 1)%Z - x k) with (h k). unfold slope, curvature, piece. cbn [k0 k1 k2 k3].
    split; [|field; lra]. specialize (I (k + 1)%Z ltac:(lia)). unfold inner in I. replace (k + 1 - 1)%Z with k in I by lia. set (M1 := M (k + 1)%Z) in *. set (M2 := M (k + 1 + 1)%Z) in *. set (s1 := sl k) in *. set (s2 := sl (k + 1)) in *.
    transitivity (s1 + (h k * M k + 2 * h k * M1) / 6); [field; lra|]. transitivity (s2 - (2 * h (k + 1) * M1 + h (k + 1) * M2) / 6); [|field; lra].
    assert (X : s1 + (h k * M k + 2 * h k * M1) / 6 - (s2 - (2 * h (k + 1) * M1 + h (k + 1) * M2) / 6) == ((h k * M k + 2 * (h k + h (k + 1)) * M1 + h (k + 1) * M2) - 6 * (s2 - s1)) / 6) by field.
    rewrite I in X. assert (Y : (6 * (s2 - s1) - 6 * (s2 - s1)) / 6 == 0) by field. rewrite Y in X. lra.
  - unfold begin_of, first_row in *. pose proof (h_pos 1 ltac:(lia)) as P. destruct (Qltb huge yp1); unfold end_condition, slope, curvature, piece; cbn [k0 k1 k2 k3]; change (1 + 1)%Z with 2%Z.
    + rewrite F. field. lra.
    + assert (E : M 2%Z == 6 * (sl 1 - yp1) / h 1 - 2 * M 1%Z) by lra. rewrite E. field. lra.
  - unfold finish_of, last_row in *. pose proof (h_pos (n - 1) ltac:(lia)) as P. replace (x n - x (n - 1)%Z) with (h (n - 1)) by (unfold h; now replace (n - 1 + 1)%Z with n by lia).
    destruct (Qltb huge ypn); unfold end_condition, slope, curvature, piece; cbn [k0 k1 k2 k3]; replace (n - 1 + 1)%Z with n by lia.
    + rewrite L. field. lra.
    + assert (E : M (n - 1)%Z == 6 * (ypn - sl (n - 1)) / h (n - 1) - 2 * M n) by lra. rewrite E. field. lra.
Qed.

(** the interval *)
Lemma bracket_ok v : forall fuel klo khi, (Z.to_nat (khi - klo) <= fuel)%nat -> (1 <= klo < khi)%Z -> (khi <= n)%Z -> (klo = 1%Z \/ x klo <= v) -> (khi = n \/ v < x khi) ->
  exists k, bracket fuel x v klo khi = (k, (k + 1)%Z) /\ (1 <= k < n)%Z /\ (k = 1%Z \/ x k <= v) /\ ((k + 1)%Z = n \/ v < x (k + 1)%Z).
Proof.
  induction fuel as [|fuel IH]; intros klo khi Hf H1 H2 H3 H4; [lia|]. cbn [bracket]. destruct (Z.ltb_spec 1 (khi - klo)) as [L|L].
  - assert (Hk : (klo < Z.shiftr (khi + klo) 1 < khi)%Z). { rewrite Z.shiftr_div_pow2 by lia. change (2 ^ 1)%Z with 2%Z. pose proof (Z.div_mod (khi + klo) 2). pose proof (Z.mod_pos_bound (khi + klo) 2). lia. }
    destruct (Qltb v (x (Z.shiftr (khi + klo) 1))) eqn:E.
    + apply Qltb_true in E. apply IH; try lia; [exact H3|now right].
    + apply Qltb_false in E. apply IH; try lia; [now right|exact H4].
  - exists klo. replace khi with (klo + 1)%Z by lia. split; [reflexivity|]. split; [lia|]. split; [exact H3|]. now replace (klo + 1)%Z with khi by lia.
Qed.
Lemma splint_ok M v : exists k w, splint x y M n v = Some w /\ (1 <= k < n)%Z /\ (k = 1%Z \/ x k <= v) /\ ((k + 1)%Z = n \/ v < x (k + 1)%Z) /\ w == value (piece M k) (v - x k).
Proof.
  destruct (bracket_ok v (Z.to_nat n) 1 n) as (k & E & Hk & H1 & H2); [lia|lia|lia|now left|now left|].
  unfold splint. rewrite E. pose proof (h_pos k Hk) as P. unfold h in P. replace (Qeq_bool _ 0) with false.
  2: { symmetry. apply not_true_iff_false. rewrite Qeq_bool_iff. lra. }
  exists k. eexists. split; [reflexivity|]. split; [exact Hk|]. split; [exact H1|]. split; [exact H2|].
  unfold value, piece. cbn [k0 k1 k2 k3]. unfold sl, h. field. lra.
Qed.
(** two neighbouring pieces agree at the knot, so any piece that covers v gives the value *)
Lemma splint_any M v : cubic_spline x y n begin_of finish_of (piece M) -> exists w, splint x y M n v = Some w /\
  forall k, (1 <= k < n)%Z -> (k = 1%Z \/ x k <= v) -> (k = (n - 1)%Z \/ v <= x (k + 1)%Z) -> w == value (piece M k) (v - x k).
Proof.
  intros (C & _). destruct (splint_ok M v) as (k & w & E & Hk & H1 & H2 & Ew). exists w. split; [exact E|]. intros j Hj J1 J2.
  destruct (Z.lt_trichotomy j k) as [L|[->|L]]; [|exact Ew|].
  - (* j < k: v <= x (j+1) <= x k <= v *)
    destruct H1 as [->|H1]; [lia|]. destruct J2 as [->|J2]; [lia|].
    assert (Ek : k = (j + 1)%Z). { destruct (Z.eq_dec k (j + 1)); [assumption|]. assert (x (j + 1)%Z < x k) by (apply Hx; lia). lra. }
    subst k. assert (Ev : v == x (j + 1)%Z) by lra. rewrite Ew.
    assert (S0 : v - x (j + 1)%Z == 0) by lra. destruct (C j Hj) as [_ C2]. destruct (C (j + 1)%Z Hk) as [C1 _].
    assert (V : forall c a b, a == b -> value c a == value c b) by (intros c0 p q Epq; unfold value; rewrite Epq; reflexivity).
    rewrite (V _ _ _ S0), C1, <- C2. apply V. lra.
  - destruct J1 as [->|J1]; [lia|]. destruct H2 as [H2|H2]; [lia|].
    assert (x (k + 1)%Z <= x j). { destruct (Z.eq_dec j (k + 1)) as [->|N]; [lra|]. apply Qlt_le_weak. apply Hx; lia. } lra.
Qed.
End SPLINE.
