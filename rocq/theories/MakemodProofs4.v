(** Uniqueness of splines; lateral variation; smoothing and reflectivity. *)
From Coq Require Import ZArith QArith Qabs List Bool Lia Lqa Setoid.
From Verif Require Import ListAux FdKernels FdProofs FdOutputProofs Marchenko MarchenkoProofs PropertiesMarchenko Makemod MakemodSpec MakemodProofs MakemodProofs2 MakemodProofs3.
Import ListNotations.
Local Open Scope Q_scope.

Section UNIQUE.
Variables (x y : Z -> Q) (n : Z) (yp1 ypn : Q) (a : Z -> Q).
Hypotheses (Hn : (2 <= n)%Z) (Hx : increasing x 1 n).
Let h (k : Z) : Q := x (k + 1)%Z - x k.
Let sl (k : Z) : Q := (y (k + 1)%Z - y k) / h k.
Notation inner := (inner x y). Notation first_row := (first_row x y yp1). Notation last_row := (last_row x y n ypn).
Lemma hp k : (1 <= k < n)%Z -> 0 < h k. Proof. exact (h_pos x y n a Hx k). Qed.
Lemma backward : let '(g, u) := fold_left (spline_row x y) (range 2 n) (s_start x y yp1 a) in
  (forall i, (1 <= i < n)%Z -> -1 < g i /\ g i <= 0) /\
  forall M, first_row M -> (forall i, (2 <= i < n)%Z -> inner M i) -> eliminated n g u M.
Proof.
  assert (H : let '(g, u) := fold_left (spline_row x y) (range 2 n) (s_start x y yp1 a) in
    (forall i, (1 <= i < n)%Z -> -1 < g i /\ g i <= 0) /\
    forall M, first_row M -> (forall i, (2 <= i < n)%Z -> inner M i) -> forall i, (1 <= i < n)%Z -> M i == g i * M (i + 1)%Z + u i).
  { apply (fold_range_inv (fun j s => let '(g, u) := s in (forall i, (1 <= i < j)%Z -> -1 < g i /\ g i <= 0) /\
      forall M, first_row M -> (forall i, (2 <= i < j)%Z -> inner M i) -> forall i, (1 <= i < j)%Z -> M i == g i * M (i + 1)%Z + u i)).
    - lia.
    - unfold s_start, MakemodProofs2.first_row; cbv beta. destruct (Qltb huge yp1); (split; [intros i Hi; replace i with 1%Z by lia; rewrite upd_same; split; lra|]); intros M E _ i Hi; replace i with 1%Z by lia; rewrite !upd_same; change (1 + 1)%Z with 2%Z.
      + rewrite E. ring.
      + pose proof (hp 1 ltac:(lia)) as P. unfold h in P. change (1 + 1)%Z with 2%Z in *.
        assert (E2 : M 1%Z == (6 * ((y 2%Z - y 1%Z) / (x 2%Z - x 1%Z) - yp1) / (x 2%Z - x 1%Z) - M 2%Z) / 2) by (unfold Qdiv at 1; setoid_replace (/ 2) with (1 # 2) by reflexivity; lra).
        rewrite E2. field. lra.
    - intros i [g u] Hi (B & F). unfold spline_row.
      pose proof (hp (i - 1) ltac:(lia)) as P1. pose proof (hp i ltac:(lia)) as P2. destruct (B (i - 1)%Z ltac:(lia)) as [G1 G2].
      set (sig := (x i - x (i - 1)%Z) / (x (i + 1)%Z - x (i - 1)%Z)). set (p := sig * g (i - 1)%Z + 2).
      assert (Es : sig * (h (i - 1) + h i) == h (i - 1)).
      { unfold sig, h. replace (i - 1 + 1)%Z with i by lia. field. unfold h in P1, P2. replace (i - 1 + 1)%Z with i in P1 by lia. lra. }
      assert (S1 : 0 < sig) by nra. assert (S2 : sig < 1) by nra.
      assert (Pp : 1 < p) by (unfold p; nra).
      assert (Bi : -1 < (sig - 1) / p /\ (sig - 1) / p <= 0).
      { split; [apply Qlt_shift_div_l; lra|apply Qle_shift_div_r; lra]. }
      split.
      + intros k Hk. destruct (Z.eq_dec k i) as [->|N]; [rewrite upd_same; exact Bi|]. rewrite upd_other by lia. apply B. lia.
      + intros M E1 E2. assert (E' : forall k, (1 <= k < i)%Z -> M k == g k * M (k + 1)%Z + u k) by (apply F; [exact E1|intros k Hk; apply E2; lia]).
        intros k Hk. destruct (Z.eq_dec k i) as [->|N]; [|rewrite !upd_other by lia; apply E'; lia].
        rewrite !upd_same. specialize (E2 i ltac:(lia)). specialize (E' (i - 1)%Z ltac:(lia)). replace (i - 1 + 1)%Z with i in E' by lia.
        unfold MakemodProofs2.inner in E2; cbv beta in E2. change (x (i - 1 + 1)%Z - x (i - 1)%Z) with (h (i - 1)) in E2. change (x (i + 1)%Z - x i) with (h i) in E2.
        change ((y (i + 1)%Z - y i) / h i) with (sl i) in E2. change ((y (i - 1 + 1)%Z - y (i - 1)%Z) / h (i - 1)) with (sl (i - 1)) in E2.
        set (v := (y (i + 1)%Z - y i) / (x (i + 1)%Z - x i) - (y i - y (i - 1)%Z) / (x i - x (i - 1)%Z)).
        assert (Ev : v == sl i - sl (i - 1)) by (unfold v, sl, h; replace (i - 1 + 1)%Z with i by lia; reflexivity).
        assert (EH : x (i + 1)%Z - x (i - 1)%Z == h (i - 1) + h i) by (unfold h; replace (i - 1 + 1)%Z with i by lia; ring). rewrite EH, Ev. clear Ev EH v.
        assert (H0 : ~ h (i - 1) + h i == 0) by lra. set (D := sl i - sl (i - 1)) in *. set (H := h (i - 1) + h i) in *.
        assert (Hi' : h i == (1 - sig) * H) by (unfold H in *; lra). assert (Hi1 : h (i - 1) == sig * H) by lra. rewrite Hi', Hi1 in E2.
        assert (Q2 : sig * M (i - 1)%Z + 2 * M i + (1 - sig) * M (i + 1)%Z == 6 * D / H).
        { transitivity ((sig * H * M (i - 1)%Z + 2 * H * M i + (1 - sig) * H * M (i + 1)%Z) / H); [field; exact H0|]. rewrite E2. reflexivity. }
        rewrite E' in Q2.
        assert (Q3 : p * M i == (sig - 1) * M (i + 1)%Z + 6 * D / H - sig * u (i - 1)%Z) by (unfold p; lra).
        transitivity ((p * M i) / p); [field; lra|]. rewrite Q3. field. split; [exact H0|lra]. }
  destruct (fold_left _ _ _) as [g u]. exact H.
Qed.
Lemma rows_unique M M' : first_row M -> last_row M -> (forall i, (2 <= i < n)%Z -> inner M i) -> first_row M' -> last_row M' -> (forall i, (2 <= i < n)%Z -> inner M' i) ->
  forall k, (1 <= k <= n)%Z -> M k == M' k.
Proof.
  intros F L I F' L' I'. pose proof backward as B. destruct (fold_left _ _ _) as [g u]. destruct B as [B E]. pose proof (E M F I) as E1. pose proof (E M' F' I') as E2. clear E.
  assert (T : M n == M' n).
  { unfold MakemodProofs2.last_row in *. destruct (Qltb huge ypn); [rewrite L, L'; reflexivity|]. destruct (B (n - 1)%Z ltac:(lia)) as [G1 G2].
    specialize (E1 (n - 1)%Z ltac:(lia)). specialize (E2 (n - 1)%Z ltac:(lia)). replace (n - 1 + 1)%Z with n in * by lia. rewrite E1 in L. rewrite E2 in L'.
    assert (X : (g (n - 1)%Z + 2) * (M n - M' n) == 0) by lra. apply Qmult_integral in X. destruct X as [X|X]; lra. }
  assert (G : forall k, (k <= Z.to_nat (n - 1))%nat -> M (n - Z.of_nat k)%Z == M' (n - Z.of_nat k)%Z).
  { induction k as [|k IH]; intros Hk; [rewrite Z.sub_0_r; exact T|]. rewrite (E1 (n - Z.of_nat (S k))%Z), (E2 (n - Z.of_nat (S k))%Z) by lia. replace (n - Z.of_nat (S k) + 1)%Z with (n - Z.of_nat k)%Z by lia. rewrite IH by lia. reflexivity. }
  intros k Hk. specialize (G (Z.to_nat (n - k)) ltac:(lia)). now replace (n - Z.of_nat (Z.to_nat (n - k)))%Z with k in G by lia.
Qed.
(** the second derivatives of a spline satisfy the rows *)
Definition curv (c : Z -> cubic) (k : Z) : Q := if (k <? n)%Z then curvature (c k) 0 else curvature (c (n - 1)%Z) (x n - x (n - 1)%Z).
Lemma spline_pieces c : cubic_spline x y n (begin_of yp1) (finish_of ypn) c ->
  (forall k, (1 <= k < n)%Z -> k0 (c k) == y k /\ k1 (c k) == sl k - h k * (2 * curv c k + curv c (k + 1)) / 6 /\ k2 (c k) == curv c k / 2 /\ k3 (c k) == (curv c (k + 1) - curv c k) / (6 * h k)) /\
  first_row (curv c) /\ last_row (curv c) /\ forall i, (2 <= i < n)%Z -> inner (curv c) i.
Proof.
  intros (C1 & C2 & C3 & C4).
  assert (Cr : forall k, (1 <= k < n)%Z -> curvature (c k) (h k) == curv c (k + 1)).
  { intros k Hk. unfold curv. destruct (Z.ltb_spec (k + 1) n) as [L|L].
    - destruct (C2 k ltac:(lia)) as [_ C]. exact C.
    - replace (n - 1)%Z with k by lia. unfold h. replace (k + 1)%Z with n by lia. reflexivity. }
  assert (Cl : forall k, (1 <= k < n)%Z -> curvature (c k) 0 == curv c k) by (intros k Hk; unfold curv; rewrite (proj2 (Z.ltb_lt k n)) by lia; reflexivity).
  assert (P : forall k, (1 <= k < n)%Z -> k0 (c k) == y k /\ k1 (c k) == sl k - h k * (2 * curv c k + curv c (k + 1)) / 6 /\ k2 (c k) == curv c k / 2 /\ k3 (c k) == (curv c (k + 1) - curv c k) / (6 * h k)).
  { intros k Hk. pose proof (hp k Hk) as Ph. destruct (C1 k Hk) as [V1 V2]. fold (h k) in V2. pose proof (Cr k Hk) as R1. pose proof (Cl k Hk) as R0. rewrite <- R1, <- R0. unfold value, curvature in *.
    set (s := h k) in *. destruct (c k) as [q0 q1 q2 q3]. cbn [k0 k1 k2 k3] in *. 
    assert (A0 : q0 == y k) by (rewrite <- V1; ring). split; [exact A0|]. split; [|split; field; lra].
    unfold sl. fold s. rewrite <- V2, <- A0. field. lra. }
  split; [exact P|]. split; [|split].
  - unfold MakemodProofs2.first_row, begin_of in *. destruct (P 1%Z ltac:(lia)) as (_ & P1 & _ & _). pose proof (Cl 1%Z ltac:(lia)) as R0. pose proof (hp 1 ltac:(lia)) as Ph. destruct (Qltb huge yp1); unfold end_condition in C3.
    + rewrite <- R0. exact C3.
    + unfold slope in C3. assert (X : k1 (c 1%Z) == yp1) by (rewrite <- C3; ring). change ((y (1 + 1)%Z - y 1%Z) / (x (1 + 1)%Z - x 1%Z)) with (sl 1). change (x (1 + 1)%Z - x 1%Z) with (h 1). change (1 + 1)%Z with 2%Z in P1.
      assert (Y : h 1 * (2 * curv c 1 + curv c 2) == 6 * (sl 1 - yp1)). { rewrite <- X, P1. field. }
      transitivity (h 1 * (2 * curv c 1 + curv c 2) / h 1); [field; lra|]. rewrite Y. reflexivity.
  - unfold MakemodProofs2.last_row, finish_of in *. destruct (P (n - 1)%Z ltac:(lia)) as (_ & P1 & P2 & P3). pose proof (Cr (n - 1)%Z ltac:(lia)) as R0. pose proof (hp (n - 1) ltac:(lia)) as Ph. replace (n - 1 + 1)%Z with n in * by lia.
    assert (Eh : h (n - 1) == x n - x (n - 1)%Z) by (unfold h; replace (n - 1 + 1)%Z with n by lia; reflexivity).
    destruct (Qltb huge ypn); unfold end_condition in C4.
    + rewrite <- R0. rewrite <- C4. unfold curvature. rewrite Eh. reflexivity.
    + unfold slope in C4. rewrite <- Eh in *. assert (Es : (y n - y (n - 1)%Z) / h (n - 1) == sl (n - 1)) by (unfold sl; replace (n - 1 + 1)%Z with n by lia; reflexivity).
      change (x (n - 1 + 1)%Z - x (n - 1)%Z) with (h (n - 1)) in *. try rewrite Es.
      assert (Y : h (n - 1) * (curv c (n - 1) + 2 * curv c n) == 6 * (ypn - sl (n - 1))). { rewrite <- C4, P1, P2, P3. field. lra. }
      transitivity (h (n - 1) * (curv c (n - 1) + 2 * curv c n) / h (n - 1)); [field; lra|]. rewrite Y. reflexivity.
  - intros i Hi. unfold MakemodProofs2.inner. change (x (i - 1 + 1)%Z - x (i - 1)%Z) with (h (i - 1)). change (x (i + 1)%Z - x i) with (h i).
    change ((y (i + 1)%Z - y i) / h i) with (sl i). change ((y (i - 1 + 1)%Z - y (i - 1)%Z) / h (i - 1)) with (sl (i - 1)).
    destruct (P (i - 1)%Z ltac:(lia)) as (_ & A1 & A2 & A3). destruct (P i ltac:(lia)) as (_ & B1 & _ & _). destruct (C2 (i - 1)%Z ltac:(lia)) as [S _]. change (x (i - 1 + 1)%Z - x (i - 1)%Z) with (h (i - 1)) in S. unfold slope in S.
    replace (i - 1 + 1)%Z with i in * by lia. pose proof (hp (i - 1) ltac:(lia)) as Ph.
    assert (S' : k1 (c i) == k1 (c (i - 1)%Z) + 2 * k2 (c (i - 1)%Z) * h (i - 1) + 3 * k3 (c (i - 1)%Z) * h (i - 1) ^ 2) by (rewrite S; ring).
    rewrite A1, A2, A3, B1 in S'.
    assert (Z : (6 * (sl i - h i * (2 * curv c i + curv c (i + 1)) / 6)) == 6 * (sl (i - 1) + h (i - 1) * (curv c (i - 1) + 2 * curv c i) / 6)) by (rewrite S'; field; lra).
    assert (Z1 : 6 * (sl i - h i * (2 * curv c i + curv c (i + 1)) / 6) == 6 * sl i - h i * (2 * curv c i + curv c (i + 1))) by field.
    assert (Z2 : 6 * (sl (i - 1) + h (i - 1) * (curv c (i - 1) + 2 * curv c i) / 6) == 6 * sl (i - 1) + h (i - 1) * (curv c (i - 1) + 2 * curv c i)) by field.
    rewrite Z1, Z2 in Z. lra.
Qed.
Lemma spline_unique c c' : cubic_spline x y n (begin_of yp1) (finish_of ypn) c -> cubic_spline x y n (begin_of yp1) (finish_of ypn) c' ->
  forall k, (1 <= k < n)%Z -> forall s, value (c k) s == value (c' k) s.
Proof.
  intros H H'. destruct (spline_pieces c H) as (P & F & L & I). destruct (spline_pieces c' H') as (P' & F' & L' & I').
  pose proof (rows_unique _ _ F L I F' L' I') as U. intros k Hk s. destruct (P k Hk) as (A0 & A1 & A2 & A3). destruct (P' k Hk) as (B0 & B1 & B2 & B3).
  unfold value. rewrite A0, A1, A2, A3, B0, B1, B2, B3. rewrite (U k), (U (k + 1)%Z) by lia. reflexivity.
Qed.
End UNIQUE.

(** ** lateral variation *)
Lemma lateral_segment_ok k : forall j prev dx delt deltx row np,
  exists row', lateral_segment k j prev dx delt deltx (row, np) = (row', np + Z.of_nat k)%Z /\
    (forall t, (0 <= t < Z.of_nat k)%Z -> row' (np + t)%Z = prev + (inject_Z (j + t) * dx * delt) / deltx) /\
    (forall c, ~ (np <= c < np + Z.of_nat k)%Z -> row' c = row c).
Proof.
  induction k as [|k IH]; intros j prev dx delt deltx row np.
  - exists row. cbn [lateral_segment]. split; [f_equal; lia|]. split; [intros t Ht; lia|reflexivity].
  - cbn [lateral_segment].
    destruct (IH (j + 1)%Z prev dx delt deltx (upd row np (prev + inject_Z j * dx * delt / deltx)) (np + 1)%Z) as (row' & E & A1 & A2).
    exists row'. split; [rewrite E; f_equal; lia|]. split.
    + intros t Ht. destruct (Z.eq_dec t 0) as [->|N].
      * rewrite A2 by lia. rewrite Z.add_0_r, upd_same, Z.add_0_r. reflexivity.
      * replace (np + t)%Z with (np + 1 + (t - 1))%Z by lia. rewrite A1 by lia. now replace (j + 1 + (t - 1))%Z with (j + t)%Z by lia.
    + intros c Hc. rewrite A2 by lia. apply upd_other. lia.
Qed.
Lemma lateral_one x v n nx dx row1 : exists row, lateral 1 x v n nx dx row1 = (row1, row) /\ (forall c, (0 <= c < nx)%Z -> row c = v 0%Z) /\ forall c, ~ (0 <= c < nx)%Z -> row c = row1 c.
Proof. unfold lateral. cbn [Z.eqb Pos.eqb]. eexists. split; [reflexivity|]. destruct (fold_rows (fun _ => v 0%Z) 0 nx row1) as [F1 F2]. split; assumption. Qed.
Section LATERAL.
Variables (x : Z -> Q) (m : Z -> Z) (n nx : Z) (dx : Q) (v : Z -> Q).
Hypothesis G : on_grid x m n nx dx.
Lemma lateral_two row1 : (2 <= n)%Z -> exists row, lateral 2 x v n nx dx row1 = (row1, row) /\
  (forall c, (m 0 <= c <= m (n - 1))%Z -> on_line (x 0%Z) (v 0%Z) (x (n - 1)%Z) (v 1%Z) (inject_Z c * dx) (row c)) /\ forall c, ~ (m 0 <= c <= m (n - 1))%Z -> row c = row1 c.
Proof.
  intros Hn. assert (G' := G). destruct G' as (D & _ & G0 & Gl & Gx & Gm). unfold lateral. cbn [Z.eqb Pos.eqb].
  assert (Xl : x 0%Z < x (n - 1)%Z) by (apply (grid_lt x m n nx dx G); lia). assert (Ml : (m 0 < m (n - 1))%Z) by (apply Gm; lia).
  assert (Nd : NINT (Qabs' ((x (n - 1)%Z - x 0%Z) / dx)) = (m (n - 1) - m 0)%Z).
  { rewrite Qabs'_pos by (apply Qle_shift_div_l; lra). apply NINT_int. rewrite (Gx 0%Z), (Gx (n - 1)%Z) by lia. rewrite inject_sub. field. lra. }
  rewrite Nd. destruct (NINT_grid x m n nx dx G 0 ltac:(lia)) as [N0 _]. rewrite N0.
  destruct (lateral_segment_ok (Z.to_nat (m (n - 1) - m 0 + 1)) 0 (v 0%Z) dx (v 1%Z - v 0%Z) (x (n - 1)%Z - x 0%Z) row1 (m 0%Z)) as (row & E & A1 & A2). rewrite E. exists row. split; [reflexivity|]. split.
  - intros c Hc. replace c with (m 0 + (c - m 0))%Z at 2 by lia. rewrite A1 by lia. rewrite Z.add_0_l. unfold on_line.
    assert (Ec : inject_Z c * dx == x 0%Z + inject_Z (c - m 0) * dx) by (rewrite (Gx 0%Z) by lia; rewrite inject_sub; ring). rewrite Ec. field. lra.
  - intros c Hc. apply A2. lia.
Qed.
(** values at all points; the points must be at least two columns apart *)
Lemma lateral_many nvel row1 : (nvel <> 1)%Z -> (nvel <> 2)%Z -> (forall i, (1 <= i < n)%Z -> (m (i - 1) + 2 <= m i)%Z) -> exists row, lateral nvel x v n nx dx row1 = (row1, row) /\
  (forall k c, (1 <= k < n)%Z -> (m (k - 1) <= c <= m k)%Z -> on_line (x (k - 1)%Z) (v (k - 1)%Z) (x k) (v k) (inject_Z c * dx) (row c)) /\
  row (m (n - 1)%Z) = v (n - 1)%Z /\ forall c, ~ (m 0 <= c <= m (n - 1))%Z -> row c = row1 c.
Proof.
  intros V1 V2 Hs. assert (G' := G). destruct G' as (D & Hn & G0 & Gl & Gx & Gm). unfold lateral. rewrite (proj2 (Z.eqb_neq nvel 1) V1), (proj2 (Z.eqb_neq nvel 2) V2).
  assert (I : let '(c, prev, row) := fold_left (lateral_point x v nx dx) (range 0 n) (cover0 dx nx 0 0, 0, row1) in covered x m nx dx 0 0 n c /\ ((1 <= n)%Z -> np c = m (n - 1)%Z /\ xprev c = x (n - 1)%Z /\ prev = v (n - 1)%Z) /\ done x m dx v row1 n row).
  { apply (fold_range_inv (fun i s => let '(c, prev, row) := s in covered x m nx dx 0 0 i c /\ ((1 <= i)%Z -> np c = m (i - 1)%Z /\ xprev c = x (i - 1)%Z /\ prev = v (i - 1)%Z) /\ done x m dx v row1 i row)).
    - lia.
    - split; [reflexivity|]. split; [lia|]. split; [intros k c Hk; lia|]. split; [intros k c Hk; lia|]. reflexivity.
    - intros i [[c prev] row] Hi (C & N & Dn). unfold lateral_point. destruct (cover_point_ok x m n nx dx G 0 0 i c Hi C) as [C' P]. set (c' := cover_point dx nx c (x i)) in *. clearbody c'.
      destruct (Z.eqb_spec i 0) as [->|Ni].
      + cbn [Z.eqb Z.add Z.to_nat lateral_segment]. destruct P as [P1 P2]. split; [exact C'|]. split; [intros _; cbn [np xprev]; repeat split; assumption|].
        destruct Dn as (_ & _ & D3). split; [intros k cc Hk; lia|]. split; [intros k cc Hk; lia|]. intros cc _. apply D3. right. right. reflexivity.
      + destruct P as [P1 P2]. destruct (N ltac:(lia)) as (N1 & N2 & N3). rewrite P2, N2, P1, N1, N3.
        assert (Mi : (m (i - 1) + 2 <= m i)%Z) by (apply Hs; lia). pose proof (grid_pos x m n nx dx G i Hi) as Pi.
        assert (Xi : x (i - 1)%Z < x i) by (apply (grid_lt x m n nx dx G); lia).
        assert (Nd : NINT (Qabs' ((x i - x (i - 1)%Z) / dx)) = (m i - m (i - 1))%Z).
        { rewrite Qabs'_pos by (apply Qle_shift_div_l; lra). apply NINT_int. rewrite (Gx i), (Gx (i - 1)%Z) by lia. rewrite inject_sub. field. lra. }
        rewrite Nd. rewrite (proj2 (Z.eqb_neq (m i - m (i - 1) - 1) 0)) by lia.
        destruct (lateral_segment_ok (Z.to_nat (m i - m (i - 1) - 1 + 1)) 0 (v (i - 1)%Z) dx (v i - v (i - 1)%Z) (x i - x (i - 1)%Z) row (m (i - 1)%Z)) as (row' & E & A1 & A2).
        rewrite E. split; [unfold covered in *; rewrite (proj2 (Z.eqb_neq (i + 1) 0)) in * by lia; exact C'|]. replace (i + 1 - 1)%Z with i by lia. split; [intros _; cbn [np xprev]; repeat split; lia|].
        destruct Dn as (D1 & D2 & D3). split; [|split].
        * intros k cc Hk Hc. destruct (Z.eq_dec k i) as [->|Nk].
          -- replace cc with (m (i - 1) + (cc - m (i - 1)))%Z at 2 by lia. rewrite A1 by lia. rewrite Z.add_0_l.
             unfold on_line. assert (Ec : inject_Z cc * dx == x (i - 1)%Z + inject_Z (cc - m (i - 1)) * dx). { rewrite (Gx (i - 1)%Z) by lia. rewrite inject_sub. ring. }
             rewrite Ec. field. lra.
          -- rewrite A2; [apply D1; lia|]. assert (m k <= m (i - 1))%Z by (destruct (Z.eq_dec k (i - 1)) as [->|]; [lia|]; specialize (Gm k (i - 1)%Z); lia). lia.
        * intros k cc Hk Hc. destruct (Z.eq_dec k i) as [->|Nk].
          -- subst cc. replace (m (i - 1)%Z) with (m (i - 1) + 0)%Z by lia. rewrite A1 by lia. change (inject_Z (0 + 0)) with 0. field. lra.
          -- rewrite A2; [apply (D2 k); lia|]. subst cc. assert (m (k - 1) < m (i - 1))%Z by (apply Gm; lia). lia.
        * intros cc Hc. replace (i + 1 - 1)%Z with i in Hc by lia. rewrite A2; [apply D3|].
          -- destruct Hc as [Hc|[Hc|Hc]]; [now left|right; left; lia|lia].
          -- assert (m 0 <= m (i - 1))%Z by (destruct (Z.eq_dec (i - 1) 0) as [->|]; [lia|]; specialize (Gm 0%Z (i - 1)%Z); lia). lia. }
  destruct (fold_left _ _ _) as [[c prev] row]. destruct I as (_ & N & D1 & D2 & D3). destruct (N ltac:(lia)) as (N1 & _ & N3). rewrite N1, N3.
  eexists. split; [reflexivity|]. split; [|split; [apply upd_same|]].
  - intros k cc Hk Hc. pose proof (grid_pos x m n nx dx G k ltac:(lia)) as Pk. destruct (Z.eq_dec cc (m k)) as [->|Nc'].
    + unfold on_line. assert (V : upd row (m (n - 1)%Z) (v (n - 1)%Z) (m k) == v k).
      { destruct (Z.eq_dec k (n - 1)) as [->|Nk]; [rewrite upd_same; reflexivity|]. assert (m k < m (n - 1))%Z by (apply Gm; lia). rewrite upd_other by lia. replace (v k) with (v (k + 1 - 1)%Z) by (f_equal; lia). apply (D2 (k + 1)%Z); [lia|f_equal; lia]. }
      rewrite V. rewrite (Gx k) by lia. ring.
    + rewrite upd_other by lia. apply D1; lia.
  - intros cc Hc. pose proof (grid_pos x m n nx dx G 0 ltac:(lia)). rewrite upd_other by lia. apply D3. lia.
Qed.
End LATERAL.

(** ** smoothing *)
Lemma fold_sum (f : Z * Z -> Q) l a : fold_left (fun s p => s + f p) l a == a + fold_right (fun p s => f p + s) 0 l.
Proof. revert a. induction l as [|p l IH]; intros a; cbn [fold_left fold_right]; [ring|]. rewrite IH. ring. Qed.
Lemma stencil_sum f : fold_left (fun s p => s + f (fst p) (snd p)) stencil 0 == sum25 f.
Proof. rewrite (fold_sum (fun p => f (fst p) (snd p))). unfold sum25. change stencil with (list_prod [-2; -1; 0; 1; 2]%Z [-2; -1; 0; 1; 2]%Z). ring. Qed.
Lemma sum25_le f g : (forall a b, (-2 <= a <= 2)%Z -> (-2 <= b <= 2)%Z -> f a b <= g a b) -> sum25 f <= sum25 g.
Proof.
  intros H. unfold sum25. cbn [list_prod map app fold_right fst snd].
  repeat (apply Qplus_le_compat; [apply H; lia|]). apply Qle_refl.
Qed.
Lemma sum25_scale f k : sum25 (fun a b => k * f a b) == k * sum25 f.
Proof. unfold sum25. generalize (list_prod [-2; -1; 0; 1; 2]%Z [-2; -1; 0; 1; 2]%Z). induction l as [|p l IH]; cbn [fold_right]; [ring|]. rewrite IH. ring. Qed.
