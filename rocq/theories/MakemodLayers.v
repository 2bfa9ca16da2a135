(** Interfaces as functions of the column, and stacks of layers. *)
From Coq Require Import ZArith QArith Qabs List Bool Lia Lqa Setoid.
From Verif Require Import ListAux FdKernels FdProofs FdOutputProofs Marchenko MarchenkoProofs PropertiesMarchenko Makemod MakemodSpec MakemodProofs MakemodProofs2 MakemodProofs3 MakemodProofs4.
Import ListNotations.
Local Open Scope Q_scope.

(** ** polynomials and splines as depths *)
Lemma through_shift (x z : Z -> Q) n p : through x z 0 (n - 1) p <-> through (fun i => x (i - 1)%Z) (fun i => z (i - 1)%Z) 1 n p.
Proof.
  unfold through. split; intros [L E]; (split; [lia|]); intros i Hi.
  - apply E. lia.
  - specialize (E (i + 1)%Z ltac:(lia)). now replace (i + 1 - 1)%Z with i in E by lia.
Qed.
Lemma polint_through xa ya n x dy0 : (1 <= n)%Z -> distinct xa n -> exists y dy p, polint xa ya n x dy0 = Some (y, dy) /\ through xa ya 1 n p /\ y == eval p x /\
  ((n = 1)%Z -> dy = dy0) /\ ((1 < n)%Z -> exists q first, (first = 1 \/ first = 2)%Z /\ through xa ya first (first + n - 2) q /\ dy == y - eval q x).
Proof.
  intros Hn D. destruct (polint_ok xa ya n x dy0 Hn D) as (y & dy & E & Y & D1 & D2).
  destruct (nev_poly xa ya (Z.to_nat (n - 1)) 1) as (p & Lp & Ep). exists y, dy, p.
  assert (Ap : forall i k, (1 <= i)%Z -> (i + Z.of_nat k <= n)%Z -> apart xa i k) by (intros i k H1 H2 a b Ha Hb; apply D; lia).
  split; [exact E|]. split.
  { split; [lia|]. intros i Hi. rewrite Ep. apply nev_knot; [apply Ap; lia|lia]. }
  split; [rewrite Ep; exact Y|]. split; [exact D1|]. intros Hn'.
  assert (R : exists i, (i = 1 \/ i = 2)%Z /\ dy == y - nev xa ya (Z.to_nat (n - 2)) i x) by (destruct (D2 Hn') as [A|A]; [exists 1%Z|exists 2%Z]; auto).
  destruct R as (i & Hi & A). destruct (nev_poly xa ya (Z.to_nat (n - 2)) i) as (q & Lq & Eq). exists q, i. split; [exact Hi|]. split.
  - split; [lia|]. intros k Hk. rewrite Eq. apply nev_knot; [apply Ap; lia|lia].
  - rewrite Eq. exact A.
Qed.
Lemma increasing_distinct x n : increasing x 1 n -> distinct x n.
Proof. intros H i j Hi Hj E. specialize (H i j Hi Hj). lra. Qed.

Section DEPTH.
Variables (x z : Z -> Q) (n : Z).
Hypothesis Hx : increasing x 0 (n - 1).
Lemma Hx1 : increasing (fun i => x (i - 1)%Z) 1 n. Proof. intros i j Hi Hj. apply Hx; lia. Qed.
Lemma inc_le i j : (0 <= i <= j)%Z -> (j < n)%Z -> x i <= x j.
Proof. intros H1 H2. destruct (Z.eq_dec i j) as [->|N]; [apply Qle_refl|]. apply Qlt_le_weak, Hx; lia. Qed.
Lemma depth_unique sh u d d' : depth_at sh x z n u d -> depth_at sh x z n u d' -> d == d'.
Proof.
  destruct sh; cbn [depth_at].
  - intros [(k & Hk & Ek & Dk)|(k & Hk & L1 & L2 & O)] [(k' & Hk' & Ek' & Dk')|(k' & Hk' & L1' & L2' & O')].
    + assert (k = k'); [|subst k'; rewrite Dk, Dk'; reflexivity].
      destruct (Z.lt_trichotomy k k') as [L|[L|L]]; [|exact L|]; [assert (x k < x k') by (apply Hx; lia)|assert (x k' < x k) by (apply Hx; lia)]; lra.
    + exfalso. destruct (Z.le_gt_cases k (k' - 1)) as [L|L]; [assert (x k <= x (k' - 1)%Z) by (apply inc_le; lia)|assert (x k' <= x k) by (apply inc_le; lia)]; lra.
    + exfalso. destruct (Z.le_gt_cases k' (k - 1)) as [L|L]; [assert (x k' <= x (k - 1)%Z) by (apply inc_le; lia)|assert (x k <= x k') by (apply inc_le; lia)]; lra.
    + assert (k = k').
      { destruct (Z.lt_trichotomy k k') as [L|[L|L]]; [|exact L|]; [assert (x k <= x (k' - 1)%Z) by (apply inc_le; lia)|assert (x k' <= x (k - 1)%Z) by (apply inc_le; lia)]; lra. }
      subst k'. unfold on_line in *. assert (E : (d - d') * (x k - x (k - 1)%Z) == 0) by lra. apply Qmult_integral in E. destruct E as [E|E]; lra.
  - intros (p & T & E) (q & T' & E'). rewrite E, E'. destruct (Z.le_gt_cases 1 n) as [L|L].
    + apply (through_unique x z 0 (n - 1)); [intros a b Ha Hb Q|lia|exact T|exact T']. assert (x a < x b) by (apply Hx; lia). lra.
    + destruct T as [T _]. destruct T' as [T' _]. destruct p; [|cbn [length] in T; lia]. destruct q; [|cbn [length] in T'; lia]. reflexivity.
  - intros (c & k & S & Hk & L1 & L2 & E) (c' & k' & S' & Hk' & L1' & L2' & E').
    assert (U : forall k, (1 <= k < n)%Z -> forall s, value (c k) s == value (c' k) s).
    { apply (spline_unique (fun i => x (i - 1)%Z) (fun i => z (i - 1)%Z) n (inject_Z (10 ^ 30)) (inject_Z (10 ^ 30)) (fun _ => 0)); [lia|exact Hx1|exact S|exact S']. }
    rewrite E, E', <- U by lia. clear E E' U S' c'. destruct S as (S & _).
    assert (K : forall k k', (1 <= k < k')%Z -> (k' < n)%Z -> x (k' - 1)%Z <= u -> u <= x k -> x (k - 1)%Z <= u -> value (c k) (u - x (k - 1)%Z) == value (c k') (u - x (k' - 1)%Z)).
    { clear - Hx S. intros k k' H1 H2 A B _. assert (Q : (k' = k + 1)%Z). { destruct (Z.eq_dec k' (k + 1)) as [E|N]; [exact E|]. assert (x k < x (k' - 1)%Z) by (apply Hx; lia). lra. } subst k'.
      replace (k + 1 - 1)%Z with k in * by lia. assert (Eu : u == x k) by lra. destruct (S k ltac:(lia)) as [_ V1]. destruct (S (k + 1)%Z ltac:(lia)) as [V2 _]. replace (k + 1 - 1)%Z with k in * by lia.
      transitivity (z k).
      - rewrite <- V1. unfold value. rewrite Eu. reflexivity.
      - rewrite <- V2. unfold value. assert (Z0 : u - x k == 0) by lra. rewrite Z0. reflexivity. }
    destruct (Z.lt_trichotomy k k') as [L|[->|L]]; [apply K; try lia; assumption|reflexivity|symmetry; apply K; try lia; assumption].
Qed.
End DEPTH.

(** ** the interface of a layer *)
Lemma at_columns_ok (f : Q -> option Q) (P : Z -> Q -> Prop) a b dx itf0 : (forall j, (a <= j < b)%Z -> exists v, f (inject_Z j * dx) = Some v /\ P j v) ->
  exists itf, at_columns f a b dx itf0 = Some itf /\ (forall j, (a <= j < b)%Z -> P j (itf j)) /\ forall j, ~ (a <= j < b)%Z -> itf j = itf0 j.
Proof.
  intros H. unfold at_columns. destruct (Z.le_gt_cases a b) as [L|L].
  - apply (fold_range_inv (fun k s => exists itf, s = Some itf /\ (forall j, (a <= j < k)%Z -> P j (itf j)) /\ forall j, ~ (a <= j < k)%Z -> itf j = itf0 j)).
    + exact L.
    + exists itf0. split; [reflexivity|]. split; [intros; lia|reflexivity].
    + intros i s Hi (itf & -> & A & B). destruct (H i Hi) as (v & E & Pv). rewrite E. exists (upd itf i v). split; [reflexivity|]. split.
      * intros j Hj. destruct (Z.eq_dec j i) as [->|N]; [rewrite upd_same; exact Pv|]. rewrite upd_other by lia. apply A. lia.
      * intros j Hj. rewrite upd_other by lia. apply B. lia.
  - rewrite range_nil by lia. exists itf0. split; [reflexivity|]. split; [intros; lia|reflexivity].
Qed.
Lemma grid_increasing x m n nx dx : on_grid x m n nx dx -> increasing x 0 (n - 1).
Proof. intros G i j Hi Hj. apply (grid_lt x m n nx dx G); lia. Qed.
Lemma locate (m : Z -> Z) c : forall k, (0 <= k)%Z -> (m 0 <= c <= m k)%Z -> (exists i, (0 <= i <= k)%Z /\ m i = c) \/ exists i, (1 <= i <= k)%Z /\ (m (i - 1) < c < m i)%Z.
Proof.
  intros k H. pattern k. apply natlike_ind; [|intros j Hj IH Hc|exact H].
  - intros Hc. left. exists 0%Z. lia.
  - destruct (Z.eq_dec c (m (Z.succ j))) as [->|N]; [left; exists (Z.succ j); lia|].
    destruct (Z.le_gt_cases c (m j)) as [L|L].
    + destruct (IH ltac:(lia)) as [(i & Hi & E)|(i & Hi & E)]; [left|right]; exists i; split; try lia.
    + right. exists (Z.succ j). replace (Z.succ j - 1)%Z with j by lia. lia.
Qed.
Definition shape_of (poly : Z) : shape := if (poly =? 0)%Z then Broken else if (poly =? 1)%Z then Polynomial else Spline.
Lemma interface_depth x z m n nx dx poly pmin pmax itf0 : on_grid x m n nx dx -> (0 <= poly <= 2)%Z -> (poly = 2 -> 2 <= n)%Z ->
  exists itf, interface_of poly x z n nx dx pmin pmax itf0 = Some (m 0%Z, m (n - 1) + 1, itf)%Z /\
    (forall c, (m 0 <= c <= m (n - 1))%Z -> depth_at (shape_of poly) x z n (inject_Z c * dx) (itf c)) /\ forall c, ~ (m 0 <= c <= m (n - 1))%Z -> itf c = itf0 c.
Proof.
  intros G Hp Hs. assert (G' := G). destruct G' as (D & Hn & G0 & Gl & Gx & Gm). pose proof (grid_increasing x m n nx dx G) as I. pose proof (Hx1 x z n I) as I1.
  assert (C : (poly = 0 \/ poly = 1 \/ poly = 2)%Z) by lia. destruct C as [->|[->| ->]]; unfold interface_of, shape_of; cbn [Z.eqb Pos.eqb].
  - destruct (interface_linear_ok x m n nx dx G z pmin pmax itf0) as (itf & E & A & B & C). rewrite E. exists itf. split; [reflexivity|]. split; [|exact C].
    intros c Hc. cbn [depth_at]. destruct (locate m c (n - 1) ltac:(lia) Hc) as [(i & Hi & Ei)|(i & Hi & Ei)].
    + left. exists i. split; [lia|]. subst c. split; [apply Gx; lia|apply B; lia].
    + right. exists i. split; [lia|]. split; [rewrite Gx by lia; apply (inject_lt x m n nx dx G); lia|]. split; [rewrite (Gx i) by lia; apply (inject_lt x m n nx dx G); lia|]. apply A; lia.
  - unfold interface_poly. rewrite (columns_ok x m n nx dx G).
    destruct (at_columns_ok (fun xp => option_map fst (polint (fun i => x (i - 1)%Z) (fun i => z (i - 1)%Z) n xp 0)) (fun j v => depth_at Polynomial x z n (inject_Z j * dx) v) (m 0%Z) (m (n - 1) + 1)%Z dx itf0) as (itf & E & A & B).
    { intros j Hj. destruct (polint_through (fun i => x (i - 1)%Z) (fun i => z (i - 1)%Z) n (inject_Z j * dx) 0 Hn (increasing_distinct _ _ I1)) as (y & dy & p & Ep & T & Y & _). rewrite Ep. exists y. split; [reflexivity|]. exists p. split; [apply through_shift; exact T|exact Y]. }
    rewrite E. exists itf. split; [reflexivity|]. split; [intros c Hc; apply A; lia|intros c Hc; apply B; lia].
  - unfold interface_spline. rewrite (columns_ok x m n nx dx G). specialize (Hs eq_refl). set (big := inject_Z (10 ^ 30)).
    set (M := spline _ _ _ _ _ _).
    assert (CS : cubic_spline (fun i => x (i - 1)%Z) (fun i => z (i - 1)%Z) n (begin_of big) (finish_of big) (piece (fun i => x (i - 1)%Z) (fun i => z (i - 1)%Z) M)).
    { destruct (spline_rows (fun i => x (i - 1)%Z) (fun i => z (i - 1)%Z) n big big (fun _ => 0) Hs I1) as (R1 & R2 & R3). apply piece_spline; try assumption. }
    destruct (at_columns_ok (splint (fun i => x (i - 1)%Z) (fun i => z (i - 1)%Z) M n) (fun j v => depth_at Spline x z n (inject_Z j * dx) v) (m 0%Z) (m (n - 1) + 1)%Z dx itf0) as (itf & E & A & B).
    { intros j Hj. destruct (splint_any (fun i => x (i - 1)%Z) (fun i => z (i - 1)%Z) n big big (fun _ => 0) Hs I1 M (inject_Z j * dx) CS) as (w & Ew & Aw). exists w. split; [exact Ew|].
      cbn [depth_at]. eexists. assert (K : exists k, (1 <= k < n)%Z /\ x (k - 1)%Z <= inject_Z j * dx /\ inject_Z j * dx <= x k).
      { destruct (locate m j (n - 1) ltac:(lia) ltac:(lia)) as [(i & Hi & Ei)|(i & Hi & Ei)].
        - subst j. destruct (Z.eq_dec i 0) as [->|N].
          + exists 1%Z. split; [lia|]. change (1 - 1)%Z with 0%Z. rewrite <- (Gx 0%Z) by lia. split; [apply Qle_refl|apply (inc_le x z n I); lia].
          + exists i. split; [lia|]. rewrite <- (Gx i) by lia. split; [apply (inc_le x z n I); lia|apply Qle_refl].
        - exists i. split; [lia|]. rewrite (Gx i), (Gx (i - 1)%Z) by lia. split; apply Qlt_le_weak, (inject_lt x m n nx dx G); lia. }
      destruct K as (k & Hk & K1 & K2). exists k. split; [exact CS|]. split; [exact Hk|]. split; [exact K1|]. split; [exact K2|].
      apply Aw; [exact Hk|right; exact K1|right]. now replace (k + 1 - 1)%Z with k by lia. }
    rewrite E. exists itf. split; [reflexivity|]. split; [intros c Hc; apply A; lia|intros c Hc; apply B; lia].
Qed.

(** ** stacks of layers *)
(** the stratum described by the input of a layer *)
Definition stratum_of (dz : Q) (l : layer) : stratum :=
  mkStratum (shape_of (l_poly l)) (fun i => nth (Z.to_nat i) (l_x l) 0) (fun i => nth (Z.to_nat i) (l_z l) 0) (Z.of_nat (length (l_x l))) (nth 0 (l_cp l) 0)
    (if Qlt_le_dec 0 (l_gradlen l) then Some (NINT (l_gradlen l / dz) - 1)%Z else None) (l_gradcp l).
(** points on the grid, one velocity, and room for the transition *)
Definition valid (nx nz : Z) (dx dz : Q) (l : layer) : Prop :=
  let s := stratum_of dz l in
  (exists m, on_grid (s_x s) m (s_n s) nx dx) /\ (0 <= l_poly l <= 2)%Z /\ (l_poly l = 2%Z -> (2 <= s_n s)%Z) /\ length (l_cp l) = 1%nat /\
  forall g, s_trans s = Some g -> (0 < g)%Z /\ forall c r, (0 <= c < nx)%Z -> covers s (inject_Z c * dx) -> top_row dx dz s c r -> (r + g < nz)%Z.
Lemma row_nonneg dz d r : 0 < dz -> row_of dz d r -> (0 <= r)%Z.
Proof. intros D R. rewrite (row_of_unique dz d r _ D R (row_of_NINT dz d D)). lia. Qed.
Lemma covers_columns x m n nx dx c : on_grid x m n nx dx -> ((x 0%Z <= inject_Z c * dx /\ inject_Z c * dx <= x (n - 1)%Z) <-> (m 0 <= c <= m (n - 1))%Z).
Proof.
  intros G. assert (G' := G). destruct G' as (D & Hn & _ & _ & Gx & _). rewrite (Gx 0%Z), (Gx (n - 1)%Z) by lia.
  assert (E : forall a b, inject_Z a * dx <= inject_Z b * dx <-> (a <= b)%Z).
  { intros a b. rewrite Qmult_le_r by exact D. rewrite <- Zle_Qle. reflexivity. }
  rewrite !E. reflexivity.
Qed.
Section STACK.
Variable cospi : Q -> Q.
Hypothesis cospi_ext : forall a b, a == b -> cospi a == cospi b.
Lemma below_ext opt g top c0 c1 grad j v w : v == w -> below cospi opt g top c0 c1 grad j v -> below cospi opt g top c0 c1 grad j w.
Proof. intros E. unfold below. destruct (opt =? 3)%Z; [intros H; rewrite <- E; exact H|]. destruct (j <=? top + g)%Z; intros H; rewrite <- E; exact H. Qed.
Lemma below_plain g top c0 c1 grad j v : below cospi 3 g top c0 c1 grad j v -> below cospi 3 0 top c0 c1 grad j v.
Proof. intros H. exact H. Qed.
Lemma stack_ok gradt nx nz dx dz cp0 m0 ls : (gradt = 1 \/ gradt = 2)%Z -> 0 < dz -> (0 <= nz)%Z -> Forall (valid nx nz dx dz) ls ->
  exists s, fold_left (add_layer cospi gradt nx nz dx dz) ls (Some (background nx nz cp0 m0 dz)) = Some s /\
    (forall c, (0 <= c < nx)%Z -> m_c1 s c = speed cp0 (rev (map (stratum_of dz) ls))) /\
    (forall c j, (0 <= c < nx)%Z -> (0 <= j < nz)%Z -> rock cospi gradt dx dz cp0 (rev (map (stratum_of dz) ls)) c j (m_grid s (c * nz + j)%Z)) /\
    (forall t, ~ (0 <= t < nx * nz)%Z -> m_grid s t = m0 t).
Proof.
  intros Hg Dz Hnz. induction ls as [|l ls IH] using rev_ind; intros V.
  - eexists. split; [reflexivity|]. unfold background. cbn [m_c1 m_grid map rev speed rock].
    split; [reflexivity|].
    destruct (columns_fold (fun _ j v => v == cp0) (fun _ => 0%Z) (fun _ => nz) (fun i m => plain_column i nz 0 nz cp0 0 m) nz 0 nx m0) as [A B].
    { intros i Hi. lia. }
    { intros i m Hi. destruct (plain_column_ok i nz 0 nz cp0 0 m) as [P1 P2]. split; [|intros t Ht; apply P2; lia]. intros j Hj. rewrite P1 by lia. ring. }
    split; [intros c j Hc Hj; apply A; lia|]. intros t Ht. apply B. intros i j Hi Hj ->. apply Ht. nia.
  - apply Forall_app in V. destruct V as [V Vl]. inversion Vl as [|? ? Vl' _]; subst. clear Vl. destruct (IH V) as (s & E & C1 & R & Fr). clear IH.
    rewrite fold_left_app. cbn [fold_left]. rewrite E. rewrite map_app, rev_app_distr. cbn [map rev app].
    set (before := rev (map (stratum_of dz) ls)) in *. clearbody before. clear E.
    destruct Vl' as ((m & G) & Hp & Hp2 & Lcp & Room). set (st := stratum_of dz l) in *.
    unfold add_layer. change (arr (l_x l)) with (s_x st). change (Z.of_nat (length (l_x l))) with (s_n st). change (arr (l_z l)) with (s_z st).
    assert (G' := G). destruct G' as (Dx & Hn & G0 & Gl & Gx & Gm).
    destruct (interface_depth (s_x st) (s_z st) m (s_n st) nx dx (l_poly l) (m_min s) (m_max s) (fun _ => 0) G Hp Hp2) as (itf & Ei & Di & _). rewrite Ei.
    replace (Z.of_nat (length (l_cp l))) with 1%Z by (rewrite Lcp; reflexivity).
    destruct (lateral_one (s_x st) (arr (l_cp l)) (s_n st) nx dx (m_c1 s)) as (row & El & L1 & L2). rewrite El.
    destruct (linearint_ok (m_zp s) (m 0%Z) (m (s_n st - 1) + 1)%Z dz itf Dz) as [Z1 _]. set (zp := linearint (m_zp s) (m 0%Z) (m (s_n st - 1) + 1)%Z dz itf) in *. clearbody zp.
    set (opt := if Qltb 0 (l_gradlen l) then gradt else 3%Z).
    assert (Top : forall c, (m 0 <= c < m (s_n st - 1) + 1)%Z -> top_row dx dz st c (zp c)).
    { intros c Hc. exists (itf c). split; [apply Di; lia|apply Z1; lia]. }
    assert (Tr : (opt = 3%Z /\ s_trans st = None) \/ (opt = gradt /\ s_trans st = Some (NINT (l_gradlen l / dz) - 1)%Z)).
    { unfold opt, st, stratum_of. cbn [s_trans]. destruct (Qlt_le_dec 0 (l_gradlen l)) as [L|L]; [right|left]; [rewrite (proj2 (Qltb_true _ _) L)|rewrite (proj2 (Qltb_false _ _) L)]; split; reflexivity. }
    destruct (grid_below_ok cospi cospi_ext opt (m 0%Z) (m (s_n st - 1) + 1)%Z nz (l_gradlen l) (l_gradcp l) dz zp (m_c1 s) row (m_grid s)) as (gr & Eg & B1 & B2).
    { destruct Tr as [[-> _]|[-> _]]; lia. }
    { intros i Hi. split; [destruct (Top i Hi) as (d & _ & Rd); exact (row_nonneg dz d _ Dz Rd)|]. intros N. destruct Tr as [[T _]|[_ T]]; [contradiction|]. destruct (Room _ T) as [_ Rm]. apply (Rm i (zp i)); [lia| |exact (Top i Hi)]. apply (covers_columns (s_x st) m (s_n st) nx dx i G). lia. }
    { intros N. destruct Tr as [[T _]|[_ T]]; [contradiction|]. destruct (Room _ T) as [Rm _]. lia. }
    rewrite Eg. eexists. split; [reflexivity|]. cbn [m_c1 m_grid].
    split; [intros c Hc; cbn [speed]; rewrite L1 by exact Hc; reflexivity|]. split.
    + intros c j Hc Hj. cbn [rock].
      destruct (Z.le_gt_cases (m 0%Z) c) as [Lc|Lc]; [destruct (Z.le_gt_cases c (m (s_n st - 1)%Z)) as [Lc'|Lc']|].
      * assert (Cv : covers st (inject_Z c * dx)) by (apply (covers_columns (s_x st) m (s_n st) nx dx c G); lia).
        destruct (Z.le_gt_cases (zp c) j) as [Lj|Lj].
        -- left. split; [exact Cv|]. exists (zp c). split; [apply Top; lia|]. split; [exact Lj|].
           specialize (B1 c j ltac:(lia) ltac:(lia)). rewrite C1, L1 in B1 by lia. change (arr (l_cp l) 0%Z) with (s_cp st) in B1. change (l_gradcp l) with (s_grad st) in B1.
           destruct Tr as [[T1 ->]|[T1 ->]]; rewrite T1 in B1; exact B1.
        -- right. split; [right; exists (zp c); split; [apply Top; lia|exact Lj]|]. rewrite B2; [apply R; assumption|].
           intros i j' Hi Hj' Q. assert (0 <= zp i)%Z by (destruct (Top i Hi) as (d & _ & Rd); exact (row_nonneg dz d _ Dz Rd)). assert (i = c) by nia. subst i. nia.
      * right. split; [left; intros Cv; apply (covers_columns (s_x st) m (s_n st) nx dx c G) in Cv; lia|]. rewrite B2; [apply R; assumption|]. intros i j' Hi Hj' Q.
        assert (0 <= zp i)%Z by (destruct (Top i Hi) as (d & _ & Rd); exact (row_nonneg dz d _ Dz Rd)). assert (i = c) by nia. lia.
      * right. split; [left; intros Cv; apply (covers_columns (s_x st) m (s_n st) nx dx c G) in Cv; lia|]. rewrite B2; [apply R; assumption|]. intros i j' Hi Hj' Q.
        assert (0 <= zp i)%Z by (destruct (Top i Hi) as (d & _ & Rd); exact (row_nonneg dz d _ Dz Rd)). assert (i = c) by nia. lia.
    + intros t Ht. rewrite B2; [apply Fr; exact Ht|]. intros i j Hi Hj ->.
      assert (0 <= zp i)%Z by (destruct (Top i Hi) as (d & _ & Rd); exact (row_nonneg dz d _ Dz Rd)). apply Ht. nia.
Qed.
(** the described value is unique *)
Lemma below_unique opt g top c0 c1 grad j v w : below cospi opt g top c0 c1 grad j v -> below cospi opt g top c0 c1 grad j w -> v == w.
Proof. unfold below. destruct (opt =? 3)%Z; [intros -> ->; reflexivity|]. destruct (j <=? top + g)%Z; intros -> ->; reflexivity. Qed.
Lemma top_unique dx dz s c r r' : 0 < dz -> increasing (s_x s) 0 (s_n s - 1) -> top_row dx dz s c r -> top_row dx dz s c r' -> r = r'.
Proof.
  intros Dz I (d & A & B) (d' & A' & B'). pose proof (depth_unique _ _ _ I _ _ _ _ A A') as E.
  apply (row_of_unique dz d r r' Dz B). unfold row_of in *. rewrite E. exact B'.
Qed.
Lemma rock_unique gradt dx dz cp0 ls c j v w : 0 < dz -> Forall (fun s => increasing (s_x s) 0 (s_n s - 1)) ls -> rock cospi gradt dx dz cp0 ls c j v -> rock cospi gradt dx dz cp0 ls c j w -> v == w.
Proof.
  intros Dz. revert v w. induction ls as [|s ls IH]; intros v w F; cbn [rock]; [intros -> ->; reflexivity|]. inversion F as [|? ? I F']; subst.
  intros [(Cv & r & T & L & B)|(N & R)] [(Cv' & r' & T' & L' & B')|(N' & R')].
  - pose proof (top_unique _ _ _ _ _ _ Dz I T T') as ->. destruct (s_trans s); exact (below_unique _ _ _ _ _ _ _ _ _ B B').
  - exfalso. destruct N' as [N'|(r' & T' & L')]; [contradiction|]. pose proof (top_unique _ _ _ _ _ _ Dz I T T'). lia.
  - exfalso. destruct N as [N|(r & T & L)]; [contradiction|]. pose proof (top_unique _ _ _ _ _ _ Dz I T T'). lia.
  - exact (IH v w F' R R').
Qed.
End STACK.
