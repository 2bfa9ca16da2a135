(** Interfaces on the grid and the filling of columns. *)
From Coq Require Import ZArith QArith Qabs List Bool Lia Lqa Setoid.
From Verif Require Import ListAux FdKernels FdProofs FdOutputProofs Marchenko MarchenkoProofs PropertiesMarchenko Makemod MakemodSpec MakemodProofs MakemodProofs2.
Import ListNotations.
Local Open Scope Q_scope.

Lemma inject_sub a b : inject_Z (a - b) == inject_Z a - inject_Z b.
Proof. unfold Z.sub, Qminus. rewrite inject_Z_plus, inject_Z_opp. reflexivity. Qed.
Lemma NINT_int q m : q == inject_Z m -> NINT q = m.
Proof.
  intros E. pose proof (C45_nearest q) as H. apply Qabs_Qle_condition in H. destruct H as [H1 H2].
  assert (A : inject_Z (m - NINT q) <= 1 # 2) by (unfold Z.sub; rewrite inject_Z_plus, inject_Z_opp; lra).
  assert (B : - (1 # 2) <= inject_Z (m - NINT q)) by (unfold Z.sub; rewrite inject_Z_plus, inject_Z_opp; lra).
  unfold Qle, inject_Z in A, B. cbn in A, B. lia.
Qed.
Lemma NINT_nonneg q : 0 <= q -> inject_Z (NINT q) - (1 # 2) <= q /\ q < inject_Z (NINT q) + (1 # 2).
Proof.
  intros H. unfold NINT. destruct (Qle_bool q 0) eqn:E.
  - apply Qle_bool_iff in E. assert (Q0 : q == 0) by lra. destruct q as [a b]. unfold Qeq in Q0. cbn in Q0. assert (a = 0)%Z by lia. subst a.
    assert (Q1 : Z.quot (Qnum ((0 # b) - (1 # 2))) (Z.pos (Qden ((0 # b) - (1 # 2)))) = 0%Z).
    { cbn. rewrite <- (Z.opp_involutive (Z.neg b)). rewrite Z.quot_opp_l by lia. rewrite Z.quot_small; [reflexivity|]. cbn. lia. }
    rewrite Q1. change (inject_Z 0) with 0. assert (Z0 : 0 # b == 0) by reflexivity. split; rewrite Z0; lra.
  - assert (P : 0 < q) by (apply Qnot_le_lt; intros X; apply Qle_bool_iff in X; congruence). 
    set (r := (q + (1 # 2))). assert (Rp : 0 < r) by (unfold r; lra). assert (Hn : (0 < Qnum r)%Z) by (clear - Rp; clearbody r; destruct r as [a b]; unfold Qlt in Rp; cbn in *; lia).
    assert (F : Z.quot (Qnum r) (Z.pos (Qden r)) = Qround.Qfloor r). { rewrite Z.quot_div_nonneg by lia. destruct r; reflexivity. }
    rewrite F. pose proof (Qround.Qfloor_le r). pose proof (Qround.Qlt_floor r). rewrite inject_Z_plus in H1. change (inject_Z 1) with 1 in H1. unfold r in *. split; lra.
Qed.
Lemma NINT_nonpos q : q <= 0 -> (NINT q <= 0)%Z.
Proof.
  intros H. unfold NINT. rewrite (proj2 (Qle_bool_iff q 0) H). set (r := q - (1 # 2)). assert (R : r <= 0) by (unfold r; lra). destruct r as [a b]. unfold Qle in R. cbn in R. cbn [Qnum Qden].
  assert (a <= 0)%Z by lia. replace a with (- (- a))%Z by lia. rewrite Z.quot_opp_l by lia. pose proof (Z.quot_pos (- a) (Z.pos b)). lia.
Qed.
Lemma row_of_NINT dz d : 0 < dz -> row_of dz d (Z.max (NINT (d / dz)) 0).
Proof.
  intros Hz. assert (Ed : d == (d / dz) * dz) by (field; lra). split; intros H.
  - assert (Hq : 0 <= d / dz) by (apply Qle_shift_div_l; lra). destruct (NINT_nonneg _ Hq) as [A B].
    assert (N0 : (0 <= NINT (d / dz))%Z). { destruct (Z_le_gt_dec 0 (NINT (d / dz))); [assumption|]. assert (inject_Z (NINT (d / dz)) <= inject_Z (-1)) by (rewrite <- Zle_Qle; lia). change (inject_Z (-1)) with (-1 # 1) in H0. lra. }
    rewrite Z.max_l by exact N0. assert (Eh : dz / 2 == dz * (1 # 2)) by field. set (q := d / dz) in *. set (k := inject_Z (NINT q)) in *. clearbody k. clearbody q.
    assert (0 <= dz * (q - (k - (1 # 2)))) by (apply Qmult_le_0_compat; lra). assert (0 < dz * (k + (1 # 2) - q)) by (apply Qmult_lt_0_compat; lra). split; rewrite Ed, Eh; lra.
  - assert (Hq : d / dz <= 0) by (apply Qle_shift_div_r; lra). pose proof (NINT_nonpos _ Hq). lia.
Qed.
Lemma row_of_unique dz d r r' : 0 < dz -> row_of dz d r -> row_of dz d r' -> r = r'.
Proof.
  intros Hz [A B] [A' B']. destruct (Qlt_le_dec d 0) as [N|N]; [rewrite (B N), (B' N); reflexivity|].
  destruct (A N) as [A1 A2]. destruct (A' N) as [A3 A4].
  assert (G : forall a b, inject_Z a * dz - dz / 2 <= d -> d < inject_Z b * dz + dz / 2 -> (a <= b)%Z).
  { intros a b H1 H2. destruct (Z_le_gt_dec a b); [assumption|exfalso]. assert (inject_Z (b + 1) <= inject_Z a) by (rewrite <- Zle_Qle; lia). rewrite inject_Z_plus in H. change (inject_Z 1) with 1 in H.
    assert (0 <= dz * (inject_Z a - (inject_Z b + 1))) by (apply Qmult_le_0_compat; lra). assert (Eh : dz / 2 == dz * (1 # 2)) by field. rewrite Eh in *. lra. }
  apply Z.le_antisymm; eauto.
Qed.

(** ** straight segments *)
Lemma segment_ok k : forall j nx zprev dx dz deltx itf np, (np + Z.of_nat k <= nx)%Z ->
  exists itf', segment k j nx zprev dx dz deltx (itf, np) = (itf', np + Z.of_nat k)%Z /\
    (forall t, (0 <= t < Z.of_nat k)%Z -> itf' (np + t)%Z = zprev + (inject_Z (j + t) * dx * dz) / deltx) /\
    (forall c, ~ (np <= c < np + Z.of_nat k)%Z -> itf' c = itf c).
Proof.
  induction k as [|k IH]; intros j nx zprev dx dz deltx itf np H.
  - exists itf. cbn [segment]. split; [f_equal; lia|]. split; [intros t Ht; lia|reflexivity].
  - cbn [segment]. rewrite (proj2 (Z.ltb_lt np nx)) by lia.
    destruct (IH (j + 1)%Z nx zprev dx dz deltx (upd itf np (zprev + inject_Z j * dx * dz / deltx)) (np + 1)%Z ltac:(lia)) as (itf' & E & A1 & A2).
    exists itf'. split; [rewrite E; f_equal; lia|]. split.
    + intros t Ht. destruct (Z.eq_dec t 0) as [->|N].
      * rewrite A2 by lia. rewrite Z.add_0_r, upd_same, Z.add_0_r. reflexivity.
      * replace (np + t)%Z with (np + 1 + (t - 1))%Z by lia. rewrite A1 by lia. now replace (j + 1 + (t - 1))%Z with (j + t)%Z by lia.
    + intros c Hc. rewrite A2 by lia. apply upd_other. lia.
Qed.
Lemma segment_bounds k : forall j nx zprev dx dz deltx itf np, let '(itf', np') := segment k j nx zprev dx dz deltx (itf, np) in (np <= np')%Z /\ forall c, ~ (np <= c < nx)%Z -> itf' c = itf c.
Proof.
  induction k as [|k IH]; intros j nx zprev dx dz deltx itf np; cbn [segment]; [split; [lia|reflexivity]|].
  destruct (Z.ltb_spec np nx) as [L|L]; [|split; [lia|reflexivity]].
  specialize (IH (j + 1)%Z nx zprev dx dz deltx (upd itf np (zprev + inject_Z j * dx * dz / deltx)) (np + 1)%Z). destruct (segment _ _ _ _ _ _ _ _) as [itf' np']. destruct IH as [I1 I2].
  split; [lia|]. intros c Hc. rewrite I2 by lia. apply upd_other. lia.
Qed.
Lemma Qabs'_pos q : 0 <= q -> Qabs' q = q.
Proof. intros H. unfold Qabs'. now rewrite (proj2 (Qltb_false q 0) H). Qed.

Section LINEAR.
Variables (x : Z -> Q) (m : Z -> Z) (n nx : Z) (dx : Q).
Hypothesis G : on_grid x m n nx dx.
Lemma grid_pos i : (0 <= i < n)%Z -> (0 <= m i <= m (n - 1))%Z.
Proof.
  destruct G as (_ & _ & G0 & _ & _ & Gm). intros Hi. split.
  - destruct (Z.eq_dec i 0) as [->|N]; [assumption|]. specialize (Gm 0%Z i). lia.
  - destruct (Z.eq_dec i (n - 1)) as [->|N]; [lia|]. specialize (Gm i (n - 1)%Z). lia.
Qed.
Lemma NINT_grid i : (0 <= i < n)%Z -> NINT (x i / dx) = m i /\ NINT ((x i + dx) / dx) = (m i + 1)%Z.
Proof.
  destruct G as (D & _ & _ & _ & Gx & _). intros Hi. specialize (Gx i Hi). split; apply NINT_int; rewrite Gx; [field; lra|]. rewrite inject_Z_plus. change (inject_Z 1) with 1. field. lra.
Qed.
Lemma inject_lt a b : (a < b)%Z -> inject_Z a * dx < inject_Z b * dx.
Proof. destruct G as (D & _). intros H. apply Qmult_lt_compat_r; [exact D|]. now rewrite <- Zlt_Qlt. Qed.
Lemma grid_lt i j : (0 <= i < j)%Z -> (j < n)%Z -> x i < x j.
Proof. intros Hi Hj. assert (G' := G). destruct G' as (D & _ & _ & _ & Gx & Gm). rewrite (Gx i), (Gx j) by lia. apply inject_lt. apply Gm; lia. Qed.

(** the columns covered after the points 0..i-1 *)
Definition covered (pmin pmax : Z) (i : Z) (c : cover) : Prop :=
  if (i =? 0)%Z then c = mkCover pmin pmax (inject_Z nx * dx) 0 (np c) (xprev c)
  else pminx c = m 0%Z /\ minx c = x 0%Z /\ ((0 < m (i - 1)%Z)%Z -> pmaxx c = (m (i - 1)%Z + 1)%Z) /\ maxx c == inject_Z (m (i - 1)%Z) * dx.
Lemma cover_point_ok pmin pmax i c : (0 <= i < n)%Z -> covered pmin pmax i c -> covered pmin pmax (i + 1) (cover_point dx nx c (x i)) /\
  (if (i =? 0)%Z then np (cover_point dx nx c (x i)) = m 0%Z /\ xprev (cover_point dx nx c (x i)) = x 0%Z else np (cover_point dx nx c (x i)) = np c /\ xprev (cover_point dx nx c (x i)) = xprev c).
Proof.
  intros Hi C. assert (G' := G). destruct G' as (D & _ & G0 & Gl & Gx & Gm). destruct (NINT_grid i Hi) as [N1 N2]. pose proof (grid_pos i Hi) as Pi. unfold covered in *.
  replace (i + 1 =? 0)%Z with false by (symmetry; apply Z.eqb_neq; lia). replace (i + 1 - 1)%Z with i by lia. unfold cover_point.
  destruct (Z.eqb_spec i 0) as [->|N].
  - destruct c as [c1 c2 c3 c4 c5 c6]. cbn [np xprev] in C. injection C as -> -> -> ->. cbn [minx].
    assert (L : x 0%Z < inject_Z nx * dx) by (rewrite (Gx 0%Z) by lia; apply inject_lt; lia). rewrite (proj2 (Qltb_true _ _) L). cbn [maxx pminx pmaxx minx np xprev].
    rewrite N1, N2. destruct (Qltb 0 (x 0%Z)) eqn:E; cbn [maxx pminx pmaxx minx np xprev].
    + split; [|split; reflexivity]. split; [reflexivity|]. split; [reflexivity|]. split; [intros _; lia|]. rewrite (Gx 0%Z) by lia. reflexivity.
    + apply Qltb_false in E. rewrite (Gx 0%Z) in E by lia. assert (M0 : m 0%Z = 0%Z). { destruct (Z.eq_dec (m 0%Z) 0); [assumption|]. assert (inject_Z 0 * dx < inject_Z (m 0%Z) * dx) by (apply inject_lt; lia). change (inject_Z 0) with 0 in H. lra. }
      split; [|split; reflexivity]. split; [reflexivity|]. split; [reflexivity|]. split; [lia|]. rewrite M0. change (inject_Z 0) with 0. ring.
  - destruct C as (C1 & C2 & C3 & C4). rewrite C2. assert (L : x 0%Z <= x i) by (apply Qlt_le_weak, grid_lt; lia). rewrite (proj2 (Qltb_false _ _) L).
    assert (Lt : maxx c < x i) by (rewrite C4, (Gx i) by lia; apply inject_lt; apply Gm; lia).
    rewrite (proj2 (Qltb_true _ _) Lt). cbn [maxx pminx pmaxx minx np xprev]. rewrite N2. split; [|split; reflexivity]. split; [assumption|]. split; [assumption|]. split; [intros _; lia|]. rewrite (Gx i) by lia; reflexivity.
Qed.
Lemma columns_ok pmin pmax : columns x n nx dx pmin pmax = (m 0%Z, m (n - 1)%Z + 1)%Z.
Proof.
  assert (G' := G). destruct G' as (D & Hn & G0 & Gl & _). unfold columns.
  set (c := fold_left _ _ _). assert (C : covered pmin pmax n c).
  { apply (fold_range_inv (covered pmin pmax)); [lia|reflexivity|]. intros i s Hi C. now apply cover_point_ok. }
  unfold covered in C. rewrite (proj2 (Z.eqb_neq n 0)) in C by lia. destruct C as (-> & _ & C & _). now rewrite C by lia.
Qed.

Variables (z : Z -> Q).
Definition done (itf0 : Z -> Q) (i : Z) (itf : Z -> Q) : Prop :=
  (forall k c, (1 <= k < i)%Z -> (m (k - 1) <= c < m k)%Z -> on_line (x (k - 1)%Z) (z (k - 1)%Z) (x k) (z k) (inject_Z c * dx) (itf c)) /\
  (forall k c, (1 <= k < i)%Z -> c = m (k - 1)%Z -> itf c == z (k - 1)%Z) /\
  (forall c, ((c < m 0%Z) \/ (1 <= i /\ m (i - 1) <= c) \/ i = 0)%Z -> itf c = itf0 c).
Lemma interface_linear_ok pmin pmax itf0 : exists itf, interface_linear x z n nx dx pmin pmax itf0 = (m 0%Z, m (n - 1) + 1, itf)%Z /\
  (forall k c, (1 <= k < n)%Z -> (m (k - 1) <= c <= m k)%Z -> on_line (x (k - 1)%Z) (z (k - 1)%Z) (x k) (z k) (inject_Z c * dx) (itf c)) /\
  (forall k, (0 <= k < n)%Z -> itf (m k) == z k) /\
  (forall c, ~ (m 0 <= c <= m (n - 1))%Z -> itf c = itf0 c).
Proof.
  assert (G' := G). destruct G' as (D & Hn & G0 & Gl & Gx & Gm). unfold interface_linear.
  set (s := fold_left _ _ _).
  assert (I : let '(c, zprev, itf) := s in covered pmin pmax n c /\ np c = m (n - 1)%Z /\ done itf0 n itf).
  { subst s.
    assert (I : let '(c, zprev, itf) := fold_left (linear_point x z nx dx) (range 0 n) (cover0 dx nx pmin pmax, 0, itf0) in covered pmin pmax n c /\ ((1 <= n)%Z -> np c = m (n - 1)%Z /\ xprev c = x (n - 1)%Z /\ zprev = z (n - 1)%Z) /\ done itf0 n itf).
    { apply (fold_range_inv (fun i s => let '(c, zprev, itf) := s in covered pmin pmax i c /\ ((1 <= i)%Z -> np c = m (i - 1)%Z /\ xprev c = x (i - 1)%Z /\ zprev = z (i - 1)%Z) /\ done itf0 i itf)).
      - lia.
      - split; [reflexivity|]. split; [lia|]. split; [intros k c Hk; lia|]. split; [intros k c Hk; lia|]. reflexivity.
      - intros i [[c zprev] itf] Hi (C & N & Dn). unfold linear_point. destruct (cover_point_ok pmin pmax i c Hi C) as [C' P]. set (c' := cover_point dx nx c (x i)) in *. clearbody c'.
        destruct (Z.eqb_spec i 0) as [->|Ni].
        + cbn [Z.to_nat segment]. destruct P as [P1 P2]. split; [exact C'|]. split; [intros _; cbn [np xprev]; repeat split; assumption|].
          destruct Dn as (_ & _ & D3). split; [intros k cc Hk; lia|]. split; [intros k cc Hk; lia|]. intros cc _. apply D3. right. right. reflexivity.
        + destruct P as [P1 P2]. destruct (N ltac:(lia)) as (N1 & N2 & N3). rewrite P2, N2, P1, N1, N3.
          assert (Mi : (m (i - 1) < m i)%Z) by (apply Gm; lia). pose proof (grid_pos i Hi) as Pi.
          assert (Xi : x (i - 1)%Z < x i) by (apply grid_lt; lia).
          assert (Nd : NINT (Qabs' ((x i - x (i - 1)%Z) / dx)) = (m i - m (i - 1))%Z).
          { rewrite Qabs'_pos by (apply Qle_shift_div_l; lra). apply NINT_int. rewrite (Gx i), (Gx (i - 1)%Z) by lia. rewrite inject_sub. field. lra. }
          rewrite Nd.
          destruct (segment_ok (Z.to_nat (m i - m (i - 1))) 0 nx (z (i - 1)%Z) dx (z i - z (i - 1)%Z) (x i - x (i - 1)%Z) itf (m (i - 1)%Z) ltac:(lia)) as (itf' & E & A1 & A2).
          rewrite E. split; [unfold covered in *; rewrite (proj2 (Z.eqb_neq (i + 1) 0)) in * by lia; exact C'|]. replace (i + 1 - 1)%Z with i by lia. split; [intros _; cbn [np xprev]; repeat split; lia|].
          destruct Dn as (D1 & D2 & D3). split; [|split].
          * intros k cc Hk Hc. destruct (Z.eq_dec k i) as [->|Nk].
            -- replace cc with (m (i - 1) + (cc - m (i - 1)))%Z at 2 by lia. rewrite A1 by lia. rewrite Z.add_0_l.
               unfold on_line. assert (Ec : inject_Z cc * dx == x (i - 1)%Z + inject_Z (cc - m (i - 1)) * dx). { rewrite (Gx (i - 1)%Z) by lia. rewrite inject_sub. ring. }
               rewrite Ec. field. lra.
            -- rewrite A2; [apply D1; lia|]. assert (m k <= m (i - 1))%Z by (destruct (Z.eq_dec k (i - 1)) as [->|]; [lia|]; specialize (Gm k (i - 1)%Z); lia). lia.
          * intros k cc Hk Hc. destruct (Z.eq_dec k i) as [->|Nk].
            -- subst cc. replace (m (i - 1)%Z) with (m (i - 1) + 0)%Z by lia. rewrite A1 by lia. change (inject_Z (0 + 0)) with 0. field. lra.
            -- rewrite A2; [apply (D2 k); lia|]. subst cc. assert (m (k - 1) < m (i - 1))%Z by (apply Gm; lia). lia.
          * intros cc Hc. replace (i + 1 - 1)%Z with i in Hc by lia. rewrite A2; [apply D3|].
            -- destruct Hc as [Hc|[Hc|Hc]]; [now left|right; left; lia|lia].
            -- assert (m 0 <= m (i - 1))%Z by (destruct (Z.eq_dec (i - 1) 0) as [->|]; [lia|]; specialize (Gm 0%Z (i - 1)%Z); lia). lia. }
    destruct (fold_left _ _ _) as [[c zprev] itf]. destruct I as (I1 & I2 & I3). split; [exact I1|]. split; [now apply I2|exact I3]. }
  destruct s as [[c zprev] itf]. destruct I as (C & Nc & D1 & D2 & D3). clear s || idtac.
  unfold covered in C. rewrite (proj2 (Z.eqb_neq n 0)) in C by lia. destruct C as (C1 & _ & C3 & _). rewrite C1, C3, Nc by lia.
  rewrite range_snoc, range_nil by lia. cbn [app fold_left]. eexists. split; [reflexivity|].
  assert (K : forall k, (0 <= k < n)%Z -> upd itf (m (n - 1)%Z) (z (n - 1)%Z) (m k) == z k).
  { intros k Hk. destruct (Z.eq_dec k (n - 1)) as [->|Nk]; [rewrite upd_same; reflexivity|]. assert (m k < m (n - 1))%Z by (apply Gm; lia). rewrite upd_other by lia.
    replace (z k) with (z (k + 1 - 1)%Z) by (f_equal; lia). apply (D2 (k + 1)%Z); [lia|f_equal; lia]. }
  split; [|split; [exact K|]].
  - intros k cc Hk Hc. destruct (Z.eq_dec cc (m k)) as [->|Nc'].
    + unfold on_line. rewrite (K k) by lia. rewrite (Gx k) by lia. ring.
    + pose proof (grid_pos k ltac:(lia)). rewrite upd_other by lia. apply D1; lia.
  - intros cc Hc. pose proof (grid_pos 0 ltac:(lia)). rewrite upd_other by lia. apply D3. lia.
Qed.
End LINEAR.

(** Whatever the points are, nothing is written outside the model as long as no point is to the left of it. *)
Lemma interface_linear_bounds x z n nx dx pmin pmax itf0 : 0 < dx -> (pmax <= nx)%Z -> (forall i, (0 <= i < n)%Z -> 0 <= NINT (x i / dx))%Z ->
  let '(_, b, itf) := interface_linear x z n nx dx pmin pmax itf0 in (b <= nx)%Z /\ forall c, ~ (0 <= c < nx)%Z -> itf c = itf0 c.
Proof.
  intros D Pm H. unfold interface_linear. set (s := fold_left _ _ _).
  assert (I : let '(c, zprev, itf) := s in (0 <= np c)%Z /\ (pmaxx c <= nx)%Z /\ forall c, ~ (0 <= c < nx)%Z -> itf c = itf0 c).
  { destruct (Z_le_gt_dec 0 n) as [Hn|Hn]; [|unfold s; rewrite range_nil by lia; cbn; repeat split; [lia|exact Pm]].
    apply (fold_range_inv (fun _ s => let '(c, zprev, itf) := s in (0 <= np c)%Z /\ (pmaxx c <= nx)%Z /\ forall c, ~ (0 <= c < nx)%Z -> itf c = itf0 c)); [exact Hn|cbn; repeat split; [lia|exact Pm]|].
    intros i [[c zprev] itf] Hi (I1 & I2 & I3). unfold linear_point.
    assert (C : (0 <= np (cover_point dx nx c (x i)))%Z /\ (pmaxx (cover_point dx nx c (x i)) <= nx)%Z).
    { specialize (H i Hi). unfold cover_point. destruct (Qltb (x i) (minx c)); cbn [maxx pmaxx np pminx minx xprev]; destruct (Qltb _ _); cbn [pmaxx np]; split; lia || assumption. }
    set (c' := cover_point dx nx c (x i)) in *. clearbody c'. destruct C as [C1 C2].
    match goal with |- context [segment ?k ?j ?a ?b ?e ?f ?g (?h, ?p)] => pose proof (segment_bounds k j a b e f g h p) as B; destruct (segment k j a b e f g (h, p)) as [itf' np'] end.
    destruct B as [B1 B2]. cbn [np pmaxx]. split; [lia|]. split; [exact C2|]. intros cc Hc. rewrite B2 by lia. now apply I3. }
  destruct s as [[c zprev] itf]. destruct I as (I1 & I2 & I3). split; [exact I2|]. intros cc Hc. rewrite <- (I3 cc Hc).
  assert (F : forall l (f : Z -> Q), ~ In cc l -> fold_left (fun itf j => upd itf j (z (n - 1)%Z)) l f cc = f cc).
  { induction l as [|a l IH]; intros f N; [reflexivity|]. cbn [fold_left]. rewrite IH by (intros X; apply N; now right). apply upd_other. intros ->. apply N. now left. }
  apply F. rewrite in_range. lia.
Qed.

(** ** rows of the interface *)
Lemma fold_rows {V} (f : Z -> V) a b (m0 : Z -> V) : let m := fold_left (fun m i => upd m i (f i)) (range a b) m0 in
  (forall i, (a <= i < b)%Z -> m i = f i) /\ forall i, ~ (a <= i < b)%Z -> m i = m0 i.
Proof.
  destruct (Z_le_gt_dec a b) as [H|H]; [|rewrite range_nil by lia; cbn; split; [intros; lia|reflexivity]].
  apply (fold_range_inv (fun j m => (forall i, (a <= i < j)%Z -> m i = f i) /\ forall i, ~ (a <= i < j)%Z -> m i = m0 i)); [exact H|split; [intros; lia|reflexivity]|].
  intros j m Hj [I1 I2]. split; intros i Hi; (destruct (Z.eq_dec i j) as [->|N]; [rewrite upd_same|rewrite upd_other by exact N]); try lia; [reflexivity|apply I1; lia|apply I2; lia].
Qed.
Lemma linearint_ok zp a b dz itf : 0 < dz -> (forall i, (a <= i < b)%Z -> row_of dz (itf i) (linearint zp a b dz itf i)) /\ forall i, ~ (a <= i < b)%Z -> linearint zp a b dz itf i = zp i.
Proof.
  intros D. destruct (fold_rows (fun i => Z.max (NINT (itf i / dz)) 0) a b zp) as [F1 F2]. split; intros i Hi; unfold linearint; [rewrite F1 by exact Hi; now apply row_of_NINT|now apply F2].
Qed.
Lemma sinuousint_ok sin2 zp a b dz itf dx ampl wavel : 0 < dz ->
  (forall i, (a <= i < b)%Z -> row_of dz (itf i + ampl * sin2 (inject_Z (i - a) * dx / wavel)) (sinuousint sin2 zp a b dz itf dx ampl wavel i)) /\
  forall i, ~ (a <= i < b)%Z -> sinuousint sin2 zp a b dz itf dx ampl wavel i = zp i.
Proof.
  intros D. unfold sinuousint. destruct (Z_le_gt_dec a b) as [H|H]; [|rewrite range_nil by lia; cbn; split; [intros; lia|reflexivity]].
  match goal with |- context [fold_left ?f ?r ?s] => set (st := fold_left f r s) end.
  assert (I : snd st = (b - a)%Z /\ (forall i, (a <= i < b)%Z -> row_of dz (itf i + ampl * sin2 (inject_Z (i - a) * dx / wavel)) (fst st i)) /\ forall i, ~ (a <= i < b)%Z -> fst st i = zp i).
  { apply (fold_range_inv (fun j (st : (Z -> Z) * Z) => snd st = (j - a)%Z /\ (forall i, (a <= i < j)%Z -> row_of dz (itf i + ampl * sin2 (inject_Z (i - a) * dx / wavel)) (fst st i)) /\ forall i, ~ (a <= i < j)%Z -> fst st i = zp i)); [exact H|cbn; split; [lia|split; [intros; lia|reflexivity]]|].
    intros j [z' k] Hj (I0 & I1 & I2). cbn [fst snd] in *. subst k. split; [lia|]. split.
    - intros i Hi. destruct (Z.eq_dec i j) as [->|N]; [rewrite upd_same|rewrite upd_other by exact N; apply I1; lia].
      pose proof (row_of_NINT dz (itf j + ampl * sin2 (inject_Z (j - a) * dx / wavel)) D) as R. destruct (Z.ltb_spec (NINT ((itf j + ampl * sin2 (inject_Z (j - a) * dx / wavel)) / dz)) 0); [rewrite Z.max_r in R by lia|rewrite Z.max_l in R by lia]; exact R.
    - intros i Hi. rewrite upd_other by lia. apply I2. lia. }
  destruct I as (_ & I). exact I.
Qed.

(** ** columns of the grid *)
Lemma counted_column f i nz a b c (m0 : Z -> Q) : let s := fold_left (fun (s : (Z -> Q) * Z) j => let '(m, k) := s in (upd m (i * nz + j) (f k), k + 1)%Z) (range a b) (m0, c) in
  (forall j, (a <= j < b)%Z -> fst s (i * nz + j)%Z = f (j - a + c)%Z) /\ forall t, ~ (i * nz + a <= t < i * nz + b)%Z -> fst s t = m0 t.
Proof.
  destruct (Z_le_gt_dec a b) as [H|H]; [|rewrite range_nil by lia; cbn; split; [intros; lia|reflexivity]].
  match goal with |- context [fold_left ?f ?r ?s] => set (st := fold_left f r s) end.
  assert (I : snd st = (b - a + c)%Z /\ (forall j, (a <= j < b)%Z -> fst st (i * nz + j)%Z = f (j - a + c)%Z) /\ forall t, ~ (i * nz + a <= t < i * nz + b)%Z -> fst st t = m0 t).
  { apply (fold_range_inv (fun e (st : (Z -> Q) * Z) => snd st = (e - a + c)%Z /\ (forall j, (a <= j < e)%Z -> fst st (i * nz + j)%Z = f (j - a + c)%Z) /\ forall t, ~ (i * nz + a <= t < i * nz + e)%Z -> fst st t = m0 t)); [exact H|cbn; split; [lia|split; [intros; lia|reflexivity]]|].
    intros e [m k] He (I0 & I1 & I2). cbn [fst snd] in *. subst k. split; [lia|]. split.
    - intros j Hj. destruct (Z.eq_dec j e) as [->|N]; [rewrite upd_same; reflexivity|]. rewrite upd_other by lia. apply I1. lia.
    - intros t Ht. rewrite upd_other by lia. apply I2. lia. }
  cbv zeta. tauto.
Qed.
Section COLUMNS.
Variable cospi : Q -> Q.
Hypothesis cospi_ext : forall a b, a == b -> cospi a == cospi b.
Lemma gradient_column_ok opt i nz top g c0 c1 grad m0 : (opt = 1 \/ opt = 2)%Z -> (g <> 0)%Z -> (-1 <= g)%Z -> (0 <= top)%Z -> (top + g < nz)%Z ->
  let m := gradient_column cospi opt i nz top g c0 c1 grad m0 in
  (forall j, (top <= j < nz)%Z -> below cospi opt g top c0 c1 grad j (m (i * nz + j)%Z)) /\ forall t, ~ (i * nz + top <= t < i * nz + nz)%Z -> m t = m0 t.
Proof.
  intros Ho Hg Hg1 Ht Hn. cbv zeta. unfold gradient_column. rewrite Z.min_l by lia.
  set (kk := (if (top =? 0)%Z then 1%Z else 0%Z)).
  pose proof (counted_column (fun k => c0 + (c1 - c0) / inject_Z g * (if (opt =? 1)%Z then inject_Z k else - inject_Z g * (cospi (inject_Z k / inject_Z g) - 1) / 2)) i nz top (top + g + 1) kk m0) as A. cbv zeta in A.
  match type of A with context [fold_left ?f ?r ?s] => change (fold_left _ (range top (top + g + 1)) (m0, kk)) with (fold_left f r s) end.
  match goal with |- context [fold_left ?f (range top (top + g + 1)) ?s] => destruct (fold_left f (range top (top + g + 1)) s) as [m1 k1] end.
  destruct A as [A1 A2]. cbn [fst] in A1, A2.
  pose proof (counted_column (fun k => c1 + inject_Z k * grad) i nz (top + g + 1) nz 0 m1) as B. cbv zeta in B.
  match type of B with context [fold_left ?f ?r ?s] => set (m2 := fst (fold_left f r s)) in * end. fold m2. destruct B as [B1 B2].
  assert (Gz : ~ inject_Z g == 0). { intros E. apply Hg. unfold Qeq, inject_Z in E. cbn in E. lia. }
  split.
  - intros j Hj. unfold below. replace (opt =? 3)%Z with false by (symmetry; apply Z.eqb_neq; lia). destruct (Z.leb_spec j (top + g)) as [L|L].
    + rewrite B2 by lia. rewrite A1 by lia. fold kk. destruct Ho as [-> | ->]; cbn [Z.eqb Pos.eqb]; field; exact Gz.
    + rewrite B1 by lia. replace (j - (top + g + 1) + 0)%Z with (j - top - g - 1)%Z by lia. reflexivity.
  - intros t Ht'. rewrite B2 by lia. apply A2. lia.
Qed.
Lemma plain_column_ok i nz a b c1 grad m0 : let m := plain_column i nz a b c1 grad m0 in
  (forall j, (a <= j < b)%Z -> m (i * nz + j)%Z = c1 + inject_Z (j - a) * grad) /\ forall t, ~ (i * nz + a <= t < i * nz + b)%Z -> m t = m0 t.
Proof.
  cbv zeta. unfold plain_column. pose proof (counted_column (fun k => c1 + inject_Z k * grad) i nz a b 0 m0) as A. cbv zeta in A. destruct A as [A1 A2]. split; [|exact A2]. intros j Hj. rewrite A1 by exact Hj. now rewrite Z.add_0_r.
Qed.
(** columns a..b-1, each changed within its rows only *)
Lemma columns_fold (P : Z -> Z -> Q -> Prop) (lo hi : Z -> Z) (col : Z -> (Z -> Q) -> Z -> Q) nz a b m0 :
  (forall i, (a <= i < b)%Z -> (0 <= lo i)%Z /\ (hi i <= nz)%Z) ->
  (forall i m, (a <= i < b)%Z -> (forall j, (lo i <= j < hi i)%Z -> P i j (col i m (i * nz + j)%Z)) /\ forall t, ~ (i * nz + lo i <= t < i * nz + hi i)%Z -> col i m t = m t) ->
  let m := fold_left (fun m i => col i m) (range a b) m0 in
  (forall i j, (a <= i < b)%Z -> (lo i <= j < hi i)%Z -> P i j (m (i * nz + j)%Z)) /\
  (forall t, (forall i j, (a <= i < b)%Z -> (lo i <= j < hi i)%Z -> t <> (i * nz + j)%Z) -> m t = m0 t).
Proof.
  intros B C. cbv zeta. destruct (Z_le_gt_dec a b) as [H|H]; [|rewrite range_nil by lia; cbn; split; [intros; lia|reflexivity]].
  assert (I : let m := fold_left (fun m i => col i m) (range a b) m0 in (forall i j, (a <= i < b)%Z -> (lo i <= j < hi i)%Z -> P i j (m (i * nz + j)%Z)) /\ (forall t, (forall i j, (a <= i < b)%Z -> (lo i <= j < hi i)%Z -> t <> (i * nz + j)%Z) -> m t = m0 t)); [|exact I].
  cbv zeta. apply (fold_range_inv (fun e m => (forall i j, (a <= i < e)%Z -> (lo i <= j < hi i)%Z -> P i j (m (i * nz + j)%Z)) /\ (forall t, (forall i j, (a <= i < e)%Z -> (lo i <= j < hi i)%Z -> t <> (i * nz + j)%Z) -> m t = m0 t))); [exact H|split; [intros; lia|reflexivity]|].
  intros e m He [I1 I2]. destruct (C e m ltac:(lia)) as [C1 C2]. destruct (B e ltac:(lia)) as [B1 B2]. split.
  - intros i j Hi Hj. destruct (Z.eq_dec i e) as [->|N]; [now apply C1|]. destruct (B i ltac:(lia)) as [B3 B4]. rewrite C2; [apply I1; lia|]. nia.
  - intros t Ht. rewrite C2; [apply I2; intros i j Hi Hj; apply Ht; lia|]. intros Hr. apply (Ht e (t - e * nz)%Z); lia.
Qed.
Lemma grid_below_ok opt a b nz gradlen grad dz zp c0 c1 m0 :
  let g := (NINT (gradlen / dz) - 1)%Z in
  (opt = 1 \/ opt = 2 \/ opt = 3)%Z -> (forall i, (a <= i < b)%Z -> (0 <= zp i)%Z /\ ((opt <> 3)%Z -> (zp i + g < nz)%Z)) -> ((opt <> 3)%Z -> g <> 0 /\ -1 <= g)%Z ->
  exists m, grid_one cospi false opt a b nz gradlen grad dz zp c0 c1 m0 = Some m /\
    (forall i j, (a <= i < b)%Z -> (zp i <= j < nz)%Z -> below cospi opt g (zp i) (c0 i) (c1 i) grad j (m (i * nz + j)%Z)) /\
    (forall t, (forall i j, (a <= i < b)%Z -> (zp i <= j < nz)%Z -> t <> (i * nz + j)%Z) -> m t = m0 t).
Proof.
  intros g Ho Hz Hg. unfold grid_one. fold g. destruct (Z.eq_dec opt 3) as [->|N3].
  - cbn [Z.eqb Pos.eqb orb]. eexists. split; [reflexivity|].
    apply (columns_fold (fun i j v => below cospi 3 g (zp i) (c0 i) (c1 i) grad j v) zp (fun _ => nz) (fun i m => plain_column i nz (zp i) nz (c1 i) grad m)).
    + intros i Hi. destruct (Hz i Hi). split; [assumption|lia].
    + intros i m Hi. destruct (plain_column_ok i nz (zp i) nz (c1 i) grad m) as [P1 P2]. split; [|exact P2]. intros j Hj. rewrite P1 by exact Hj. unfold below. cbn [Z.eqb Pos.eqb]. reflexivity.
  - destruct (Hg N3) as [G0 G1]. replace ((opt =? 1) || (opt =? 2))%Z with true by (symmetry; apply orb_true_iff; rewrite !Z.eqb_eq; lia).
    rewrite (proj2 (Z.eqb_neq g 0) G0). cbn [andb]. eexists. split; [reflexivity|].
    apply (columns_fold (fun i j v => below cospi opt g (zp i) (c0 i) (c1 i) grad j v) zp (fun _ => nz) (fun i m => gradient_column cospi opt i nz (zp i) g (c0 i) (c1 i) grad m)).
    + intros i Hi. destruct (Hz i Hi). split; [assumption|lia].
    + intros i m Hi. destruct (Hz i Hi) as [Z1 Z2]. apply gradient_column_ok; try assumption; [lia|now apply Z2].
Qed.
Lemma grid_above_ok a b nz gradlen grad dz zp c0 c1 m0 : (forall i, (a <= i < b)%Z -> (zp i <= nz)%Z) ->
  exists m, grid_one cospi true 3 a b nz gradlen grad dz zp c0 c1 m0 = Some m /\
    (forall i j, (a <= i < b)%Z -> (0 <= j < zp i)%Z -> m (i * nz + j)%Z == c1 i + inject_Z j * grad) /\
    (forall t, (forall i j, (a <= i < b)%Z -> (0 <= j < zp i)%Z -> t <> (i * nz + j)%Z) -> m t = m0 t).
Proof.
  intros Hz. unfold grid_one. cbn [Z.eqb Pos.eqb orb]. eexists. split; [reflexivity|].
  apply (columns_fold (fun i j v => v == c1 i + inject_Z j * grad) (fun _ => 0%Z) zp (fun i m => plain_column i nz 0 (zp i) (c1 i) grad m)).
  - intros i Hi. specialize (Hz i Hi). lia.
  - intros i m Hi. destruct (plain_column_ok i nz 0 (zp i) (c1 i) grad m) as [P1 P2]. split; [|exact P2]. intros j Hj. rewrite P1 by exact Hj. now rewrite Z.sub_0_r.
Qed.
End COLUMNS.
