(** The interfaces, layers and grids of makemod: C63-C68. *)
From Coq Require Import ZArith QArith Qabs List Bool Lia Lqa Setoid.
From Verif Require Import ListAux FdKernels FdProofs FdOutputProofs Marchenko MarchenkoProofs PropertiesMarchenko Makemod MakemodSpec MakemodProofs MakemodProofs2 MakemodProofs3 MakemodProofs4 MakemodLayers MakemodSmooth.
Import ListNotations.
Local Open Scope Q_scope.
Definition pts (l : list Q) : Z -> Q := fun i => nth (Z.to_nat i) l 0.

(** * C63: polynomial interpolation *)
(** The result is the value of the polynomial of degree less than n through the n points, for every
    abscissa; the error estimate is its difference to the polynomial through all points but the first
    or all points but the last.  The program stops exactly when two abscissae are equal. *)
Theorem C63_polynomial_interpolation : forall xa ya n x dy0, (1 <= n)%Z ->
  (distinct xa n -> exists y dy, polint xa ya n x dy0 = Some (y, dy) /\
     (exists p, through xa ya 1 n p) /\ (forall p, through xa ya 1 n p -> y == eval p x) /\
     ((n = 1)%Z -> dy = dy0) /\
     ((1 < n)%Z -> exists first, (first = 1 \/ first = 2)%Z /\ forall q, through xa ya first (first + n - 2) q -> dy == y - eval q x)) /\
  ((exists i j, (1 <= i < j)%Z /\ (j <= n)%Z /\ xa i == xa j) -> polint xa ya n x dy0 = None).
Proof.
  intros xa ya n x dy0 Hn. split; [|apply polint_exits]. intros D.
  destruct (polint_through xa ya n x dy0 Hn D) as (y & dy & p & E & T & Y & D1 & D2). exists y, dy. split; [exact E|]. split; [exists p; exact T|]. split.
  { intros q Tq. rewrite Y. apply (through_unique xa ya 1 n); [intros a b Ha Hb; apply D; lia|lia|exact T|exact Tq]. }
  split; [exact D1|]. intros Hn'. destruct (D2 Hn') as (q & first & Hf & Tq & Eq). exists first. split; [exact Hf|]. intros q' Tq'. rewrite Eq.
  assert (U : eval q x == eval q' x) by (apply (through_unique xa ya first (first + n - 2)); [intros a b Ha Hb; apply D; lia|lia|exact Tq|exact Tq']). rewrite U. reflexivity.
Qed.
Print Assumptions C63_polynomial_interpolation.
(** 1 + x + x^2 through the points at 0, 1 and 3, at x = 2; and two equal abscissae *)
Example C63_nonvacuous : distinct (pts [0; 0; 1; 3]) 3 /\ (exists y dy, polint (pts [0; 0; 1; 3]) (pts [0; 1; 3; 13]) 3 2 0 = Some (y, dy) /\ y == 7 /\ ~ dy == 0) /\ polint (pts [0; 0; 1; 0]) (pts [0; 1; 3; 13]) 3 2 0 = None.
Proof.
  split; [|split; [|reflexivity]].
  - intros i j Hi Hj. assert (C : (i = 1 /\ j = 2 \/ i = 1 /\ j = 3 \/ i = 2 /\ j = 3)%Z) by lia. destruct C as [[-> ->]|[[-> ->]|[-> ->]]]; vm_compute; discriminate.
  - eexists. eexists. split; [vm_compute; reflexivity|]. split; [reflexivity|]. intros E. vm_compute in E. discriminate.
Qed.

(** * C64: cubic splines *)
Definition condition (yp : Q) : at_end := if Qlt_le_dec (inject_Z (99 * 10 ^ 28)) yp then Free else Slope yp.
Lemma condition_begin yp : begin_of yp = condition yp.
Proof. unfold begin_of, condition. change huge with (inject_Z (99 * 10 ^ 28)). destruct (Qlt_le_dec _ yp) as [L|L]; [rewrite (proj2 (Qltb_true _ _) L)|rewrite (proj2 (Qltb_false _ _) L)]; reflexivity. Qed.
Lemma condition_finish yp : finish_of yp = condition yp. Proof. exact (condition_begin yp). Qed.
(** There is exactly one cubic spline with the given end conditions, and the interpolation gives the
    value of the piece which covers the abscissa (the outer pieces are continued outside). *)
Theorem C64_cubic_spline : forall x y n yp1 ypn scratch, (2 <= n)%Z -> increasing x 1 n ->
  exists c, cubic_spline x y n (condition yp1) (condition ypn) c /\
    (forall c', cubic_spline x y n (condition yp1) (condition ypn) c' -> forall k s, (1 <= k < n)%Z -> value (c' k) s == value (c k) s) /\
    forall u, exists w, splint x y (spline x y n yp1 ypn scratch) n u = Some w /\
      forall k, (1 <= k < n)%Z -> (k = 1%Z \/ x k <= u) -> (k = (n - 1)%Z \/ u <= x (k + 1)%Z) -> w == value (c k) (u - x k).
Proof.
  intros x y n yp1 ypn a Hn Hx. rewrite <- condition_begin, <- (condition_finish ypn). set (M := spline x y n yp1 ypn a).
  assert (CS : cubic_spline x y n (begin_of yp1) (finish_of ypn) (piece x y M)).
  { destruct (spline_rows x y n yp1 ypn a Hn Hx) as (R1 & R2 & R3). apply piece_spline; assumption. }
  exists (piece x y M). split; [exact CS|]. split.
  - intros c' C' k s Hk. apply (spline_unique x y n yp1 ypn a Hn Hx); assumption.
  - intros u. destruct (splint_any x y n yp1 ypn a Hn Hx M u CS) as (w & E & A). exists w. split; [exact E|exact A].
Qed.
Print Assumptions C64_cubic_spline.
Example C64_nonvacuous : increasing (pts [0; 0; 1; 3]) 1 3 /\ exists w, splint (pts [0; 0; 1; 3]) (pts [0; 1; 3; 13]) (spline (pts [0; 0; 1; 3]) (pts [0; 1; 3; 13]) 3 1 7 (fun _ => 0)) 3 2 = Some w /\ w == 7.
Proof.
  split.
  - intros i j Hi Hj. assert (C : (i = 1 /\ j = 2 \/ i = 1 /\ j = 3 \/ i = 2 /\ j = 3)%Z) by lia. destruct C as [[-> ->]|[[-> ->]|[-> ->]]]; reflexivity.
  - eexists. split; [vm_compute; reflexivity|reflexivity].
Qed.
(** A spline through one point stops the program at every abscissa (an interface of a single point
    with poly=2), and so does an abscissa between two equal knots. *)
Theorem C64_stops_refuted : (forall x y M u, splint x y M 1 u = None) /\ exists x y M u, splint x y M 3 u = None /\ x 1%Z <= u /\ u <= x 3%Z.
Proof.
  split.
  - intros x y M u. unfold splint. change (bracket (Z.to_nat 1) x u 1 1) with (1, 1)%Z. cbv beta iota. rewrite (Qeq_eq_bool (x 1%Z - x 1%Z) 0) by ring. reflexivity.
  - exists (pts [0; 0; 2; 2]), (pts [0; 1; 3; 13]), (fun _ => 0), 2. split; [reflexivity|]. split; vm_compute; discriminate.
Qed.
Print Assumptions C64_stops_refuted.

(** * C65: the depth of an interface at every column *)
(** For points on grid columns, from left to right: the columns from the first to the last point are
    selected, the interface has the depth of the chosen curve there, and no other entry changes. *)
Theorem C65_interface : forall poly x z m n nx dx pmin pmax itf0, on_grid x m n nx dx -> (0 <= poly <= 2)%Z -> (poly = 2 -> 2 <= n)%Z ->
  let sh := if (poly =? 0)%Z then Broken else if (poly =? 1)%Z then Polynomial else Spline in
  exists itf, interface_of poly x z n nx dx pmin pmax itf0 = Some (m 0%Z, m (n - 1) + 1, itf)%Z /\
    (forall c, (m 0 <= c <= m (n - 1))%Z -> forall d, depth_at sh x z n (inject_Z c * dx) d <-> d == itf c) /\
    (forall c, ~ (m 0 <= c <= m (n - 1))%Z -> itf c = itf0 c).
Proof.
  intros poly x z m n nx dx pmin pmax itf0 G Hp Hs sh. destruct (interface_depth x z m n nx dx poly pmin pmax itf0 G Hp Hs) as (itf & E & A & B). exists itf. split; [exact E|]. split; [|exact B].
  intros c Hc d. change (shape_of poly) with sh in A. split.
  - intros H. exact (depth_unique x z n (grid_increasing x m n nx dx G) sh _ _ _ H (A c Hc)).
  - intros Ed. specialize (A c Hc). clearbody sh. clear - A Ed. destruct sh; cbn [depth_at] in *.
    + destruct A as [(k & H1 & H2 & H3)|(k & H1 & H2 & H3 & H4)]; [left|right]; exists k; (split; [exact H1|]); (split; [exact H2|]); [rewrite Ed; exact H3|split; [exact H3|]]. unfold on_line in *. rewrite Ed. exact H4.
    + destruct A as (p & T & V). exists p. split; [exact T|]. rewrite Ed. exact V.
    + destruct A as (cc & k & H1 & H2 & H3 & H4 & H5). exists cc, k. split; [exact H1|]. split; [exact H2|]. split; [exact H3|]. split; [exact H4|]. rewrite Ed. exact H5.
Qed.
Print Assumptions C65_interface.
(** Whatever the points, the linear interface stays inside the array as long as no point is left of it. *)
Theorem C65_linear_in_bounds : forall x z n nx dx pmin pmax itf0, 0 < dx -> (pmax <= nx)%Z -> (forall i, (0 <= i < n)%Z -> 0 <= NINT (x i / dx))%Z ->
  let '(_, b, itf) := interface_linear x z n nx dx pmin pmax itf0 in (b <= nx)%Z /\ forall c, ~ (0 <= c < nx)%Z -> itf c = itf0 c.
Proof. exact interface_linear_bounds. Qed.
Print Assumptions C65_linear_in_bounds.
(** One, two, or one value per point: constant, linear between the outer points, or linear between
    neighbouring points at least two columns apart. *)
Theorem C65_lateral : forall x v m n nx dx row1, on_grid x m n nx dx ->
  (exists row, lateral 1 x v n nx dx row1 = (row1, row) /\ (forall c, (0 <= c < nx)%Z -> row c = v 0%Z) /\ forall c, ~ (0 <= c < nx)%Z -> row c = row1 c) /\
  ((2 <= n)%Z -> exists row, lateral 2 x v n nx dx row1 = (row1, row) /\
     (forall c, (m 0 <= c <= m (n - 1))%Z -> on_line (x 0%Z) (v 0%Z) (x (n - 1)%Z) (v 1%Z) (inject_Z c * dx) (row c)) /\ forall c, ~ (m 0 <= c <= m (n - 1))%Z -> row c = row1 c) /\
  ((3 <= n)%Z -> (forall i, (1 <= i < n)%Z -> (m (i - 1) + 2 <= m i)%Z) -> exists row, lateral n x v n nx dx row1 = (row1, row) /\
     (forall k c, (1 <= k < n)%Z -> (m (k - 1) <= c <= m k)%Z -> on_line (x (k - 1)%Z) (v (k - 1)%Z) (x k) (v k) (inject_Z c * dx) (row c)) /\
     forall c, ~ (m 0 <= c <= m (n - 1))%Z -> row c = row1 c).
Proof.
  intros x v m n nx dx row1 G. split; [apply lateral_one|]. split.
  - intros Hn. apply lateral_two; assumption.
  - intros Hn Hs. destruct (lateral_many x m n nx dx v G n row1 ltac:(lia) ltac:(lia) Hs) as (row & E & A & _ & B). exists row. auto.
Qed.
Print Assumptions C65_lateral.
(** The row of the interface is the nearest one. *)
Theorem C65_rows : forall zp a b dz itf, 0 < dz ->
  ((forall i, (a <= i < b)%Z -> row_of dz (itf i) (linearint zp a b dz itf i)) /\ forall i, ~ (a <= i < b)%Z -> linearint zp a b dz itf i = zp i) /\
  forall sin2 dx ampl wavel,
    (forall i, (a <= i < b)%Z -> row_of dz (itf i + ampl * sin2 (inject_Z (i - a) * dx / wavel)) (sinuousint sin2 zp a b dz itf dx ampl wavel i)) /\
    forall i, ~ (a <= i < b)%Z -> sinuousint sin2 zp a b dz itf dx ampl wavel i = zp i.
Proof. intros zp a b dz itf D. split; [apply linearint_ok; exact D|]. intros sin2 dx ampl wavel. apply sinuousint_ok; exact D. Qed.
Print Assumptions C65_rows.
Definition three : Z -> Z := fun i => nth (Z.to_nat i) [1; 3; 7]%Z 0%Z.
Example C65_nonvacuous : on_grid (pts [1; 3; 7]) three 3 10 1 /\ (forall i, (1 <= i < 3)%Z -> (three (i - 1) + 2 <= three i)%Z) /\
  (let '(_, _, itf) := interface_linear (pts [1; 3; 7]) (pts [2; 4; 0]) 3 10 1 0 10 (fun _ => 9) in map (fun c => Qred (itf c)) [0; 1; 2; 3; 4; 5; 6; 7; 8]%Z = [9; 2; 3; 4; 3; 2; 1; 0; 9]) /\
  map (linearint (fun _ => 5%Z) 1 4 (1 # 2) (pts [0; 1; 1 # 4; 3 # 5])) [0; 1; 2; 3; 4]%Z = [5; 2; 1; 1; 5]%Z.
Proof.
  split; [|split; [|split; reflexivity]].
  - split; [reflexivity|]. split; [lia|]. split; [vm_compute; discriminate|]. split; [vm_compute; split; [reflexivity|reflexivity]|]. split.
    + intros i Hi. assert (C : (i = 0 \/ i = 1 \/ i = 2)%Z) by lia. destruct C as [->|[->| ->]]; reflexivity.
    + intros i j Hi Hj. assert (C : (i = 0 /\ j = 1 \/ i = 0 /\ j = 2 \/ i = 1 /\ j = 2)%Z) by lia. destruct C as [[-> ->]|[[-> ->]|[-> ->]]]; reflexivity.
  - intros i Hi. assert (C : (i = 1 \/ i = 2)%Z) by lia. destruct C as [->| ->]; vm_compute; discriminate.
Qed.
(** Points which are not on columns: the rounded lengths of the segments add up, so that the
    interface through (0,0), (1.4,1.4), ... (7,7) has depth 5.6 at column 4 and 7 from column 5. *)
Theorem C65_off_grid_refuted : exists x z n nx dx, increasing x 0 (n - 1) /\ (forall i, (0 <= i < n)%Z -> 0 <= x i /\ x i <= inject_Z (nx - 1) * dx) /\
  (forall u, 0 <= u -> u <= 7 -> depth_at Broken x (fun i => x i) n u u) /\ (forall i, z i = x i) /\
  let '(a, b, itf) := interface_linear x z n nx dx 0 nx (fun _ => 0) in a = 0%Z /\ b = 8%Z /\ itf 4%Z == 56 # 10 /\ itf 5%Z == 7.
Proof.
  exists (fun i => inject_Z i * (14 # 10)), (fun i => inject_Z i * (14 # 10)), 6%Z, 10%Z, 1.
  split; [intros i j Hi Hj; apply Qmult_lt_r; [reflexivity|]; rewrite <- Zlt_Qlt; lia|]. split.
  { intros i Hi. assert (C : (i = 0 \/ i = 1 \/ i = 2 \/ i = 3 \/ i = 4 \/ i = 5)%Z) by lia. destruct C as [->|[->|[->|[->|[->| ->]]]]]; split; vm_compute; discriminate. }
  split.
  { intros u U1 U2. cbn [depth_at].
    assert (K : forall k, (0 <= k <= 5)%Z -> u <= inject_Z k * (14 # 10) -> (exists j, (0 <= j < 6)%Z /\ inject_Z j * (14 # 10) == u) \/ exists j, (1 <= j < 6)%Z /\ inject_Z (j - 1) * (14 # 10) < u /\ u < inject_Z j * (14 # 10)).
    { intros k Hk. assert (H0 : (0 <= k)%Z) by lia. revert Hk. pattern k. apply natlike_ind; [intros _ H; left; exists 0%Z; split; [lia|]|intros j Hj IH Hk H|exact H0].
      - change (inject_Z 0) with 0 in *. lra.
      - destruct (Qlt_le_dec (inject_Z j * (14 # 10)) u) as [L|L]; [|apply IH; [lia|exact L]].
        destruct (Qeq_dec (inject_Z (Z.succ j) * (14 # 10)) u) as [E|E]; [left; exists (Z.succ j); split; [lia|exact E]|]. right. exists (Z.succ j). split; [lia|]. replace (Z.succ j - 1)%Z with j by lia. split; [exact L|]. apply Qle_lteq in H. destruct H as [H|H]; [exact H|]. exfalso. apply E. symmetry. exact H. }
    destruct (K 5%Z ltac:(lia)) as [(j & Hj & E)|(j & Hj & E1 & E2)]; [change (inject_Z 5) with 5; lra|left|right]; exists j; (split; [exact Hj|]).
    - split; [exact E|symmetry; exact E].
    - split; [exact E1|]. split; [exact E2|]. unfold on_line. ring. }
  split; [reflexivity|]. vm_compute. repeat split; reflexivity.
Qed.
Print Assumptions C65_off_grid_refuted.
(** A point to the left of the model stores in front of the interface array. *)
Theorem C65_left_of_model_refuted : exists x z nx, let '(_, _, itf) := interface_linear x z 2 nx 1 0 nx (fun _ => 0) in exists c, (c < 0)%Z /\ ~ itf c == 0.
Proof. exists (pts [-3; 2]), (pts [1; 1]), 10%Z. vm_compute. exists (-3)%Z. split; [reflexivity|]. intros E. vm_compute in E. discriminate. Qed.
Print Assumptions C65_left_of_model_refuted.
(** One value per point with points one column apart: the values are shifted by a column. *)
Theorem C65_lateral_adjacent_refuted : exists x v m nx dx, on_grid x m 4 nx dx /\ let '(_, row) := lateral 4 x v 4 nx dx (fun _ => 0) in ~ row (m 2%Z) == v 2%Z.
Proof.
  exists (pts [0; 1; 2; 6]), (pts [10; 20; 30; 40]), (fun i => nth (Z.to_nat i) [0; 1; 2; 6]%Z 0%Z), 8%Z, 1. split.
  - split; [reflexivity|]. split; [lia|]. split; [vm_compute; discriminate|]. split; [vm_compute; split; reflexivity|]. split.
    + intros i Hi. assert (C : (i = 0 \/ i = 1 \/ i = 2 \/ i = 3)%Z) by lia. destruct C as [->|[->|[->| ->]]]; reflexivity.
    + intros i j Hi Hj. assert (C : (i = 0 /\ j = 1 \/ i = 0 /\ j = 2 \/ i = 0 /\ j = 3 \/ i = 1 /\ j = 2 \/ i = 1 /\ j = 3 \/ i = 2 /\ j = 3)%Z) by lia. destruct C as [[-> ->]|[[-> ->]|[[-> ->]|[[-> ->]|[[-> ->]|[-> ->]]]]]]; reflexivity.
  - vm_compute. intros E. discriminate.
Qed.
Print Assumptions C65_lateral_adjacent_refuted.

(** * C66: filling the grid below or above an interface *)
Definition wave_ext (cospi : Q -> Q) : Prop := forall a b, a == b -> cospi a == cospi b.
Theorem C66_fill_below : forall cospi opt a b nz gradlen grad dz zp c0 c1 m0, wave_ext cospi ->
  let g := (NINT (gradlen / dz) - 1)%Z in
  (opt = 1 \/ opt = 2 \/ opt = 3)%Z -> (forall i, (a <= i < b)%Z -> (0 <= zp i)%Z /\ ((opt <> 3)%Z -> (zp i + g < nz)%Z)) -> ((opt <> 3)%Z -> (0 < g)%Z) ->
  exists m, grid_one cospi false opt a b nz gradlen grad dz zp c0 c1 m0 = Some m /\
    (forall i j, (a <= i < b)%Z -> (zp i <= j < nz)%Z -> below cospi opt g (zp i) (c0 i) (c1 i) grad j (m (i * nz + j)%Z)) /\
    (forall t, (forall i j, (a <= i < b)%Z -> (zp i <= j < nz)%Z -> t <> (i * nz + j)%Z) -> m t = m0 t).
Proof. intros cospi opt a b nz gradlen grad dz zp c0 c1 m0 X g Ho Hz Hg. apply (grid_below_ok cospi X); [exact Ho|exact Hz|]. intros N. specialize (Hg N). fold g. lia. Qed.
Print Assumptions C66_fill_below.
Theorem C66_fill_above : forall cospi a b nz gradlen grad dz zp c0 c1 m0, (forall i, (a <= i < b)%Z -> (zp i <= nz)%Z) ->
  exists m, grid_one cospi true 3 a b nz gradlen grad dz zp c0 c1 m0 = Some m /\
    (forall i j, (a <= i < b)%Z -> (0 <= j < zp i)%Z -> m (i * nz + j)%Z == c1 i + inject_Z j * grad) /\
    (forall t, (forall i j, (a <= i < b)%Z -> (0 <= j < zp i)%Z -> t <> (i * nz + j)%Z) -> m t = m0 t).
Proof. intros cospi. exact (grid_above_ok (fun _ => 0) (fun _ _ _ => Qeq_refl 0)). Qed.
Print Assumptions C66_fill_above.
(** Three properties: each grid is filled from its own rows; absent grids stay absent. *)
Theorem C66_three_properties : forall cospi above opt a b nz gradlen dz zp rcp rcs rro gcp gcs gro p s r, (opt = 1 \/ opt = 2 \/ opt = 3)%Z -> (a < b)%Z ->
  grid cospi above opt a b nz gradlen dz zp rcp rcs rro gcp gcs gro = Some (p, s, r) ->
  let one (rw : rows) m := let '(c0, c1, grad) := rw in grid_one cospi above opt a b nz gradlen grad dz zp c0 c1 m in
  one rcp gcp = Some p /\
  match gcs with None => s = None | Some m => exists m', s = Some m' /\ one rcs m = Some m' end /\
  match gro with None => r = None | Some m => exists m', r = Some m' /\ one rro m = Some m' end.
Proof.
  intros cospi above opt a b nz gradlen dz zp [[p0 p1] pg] [[s0 s1] sg] [[r0 r1] rg] gcp gcs gro p s r Ho Hab E. cbv zeta. unfold grid, grid_rows in E. cbv zeta beta iota in E.
  destruct gcs as [cs|]; destruct gro as [ro|].
  - destruct (grid_one _ _ _ _ _ _ _ pg _ _ p0 p1 gcp) as [p'|]; [|discriminate]. destruct (grid_one _ _ _ _ _ _ _ sg _ _ s0 s1 cs) as [s'|]; [|discriminate]. destruct (grid_one _ _ _ _ _ _ _ rg _ _ r0 r1 ro) as [r'|]; [|discriminate].
    injection E as <- <- <-. split; [reflexivity|]. split; eexists; split; reflexivity.
  - rewrite (proj2 (Z.ltb_lt a b) Hab) in E. destruct Ho as [->|[->| ->]]; discriminate.
  - destruct (grid_one _ _ _ _ _ _ _ pg _ _ p0 p1 gcp) as [p'|]; [|discriminate]. destruct (grid_one _ _ _ _ _ _ _ rg _ _ r0 r1 ro) as [r'|]; [|discriminate].
    injection E as <- <- <-. split; [reflexivity|]. split; [reflexivity|]. eexists; split; reflexivity.
  - destruct (grid_one _ _ _ _ _ _ _ pg _ _ p0 p1 gcp) as [p'|]; [|discriminate]. injection E as <- <- <-. repeat split.
Qed.
Print Assumptions C66_three_properties.
Definition cos0 (_ : Q) : Q := 0.
Example C66_nonvacuous : wave_ext cos0 /\ exists m, grid_one cos0 false 1 0 2 6 3 (1 # 10) 1 (fun _ => 2%Z) (fun _ => 10) (fun _ => 14) (fun _ => 0) = Some m /\ map (fun t => Qred (m t)) [0; 1; 2; 3; 4; 5; 6; 7; 8; 9; 10; 11; 12]%Z = [0; 0; 10; 12; 14; 14; 0; 0; 10; 12; 14; 14; 0].
Proof. split; [intros a b _; reflexivity|]. eexists. split; [vm_compute; reflexivity|]. reflexivity. Qed.
(** Without room for the transition above the bottom, a value is stored in the next column. *)
Theorem C66_bottom_refuted : exists nz zp m, (zp < nz)%Z /\ grid_one cos0 false 1 0 1 nz 4 0 1 (fun _ => zp) (fun _ => 10) (fun _ => 16) (fun _ => 0) = Some m /\ ~ m nz == 0.
Proof. exists 6%Z, 4%Z. eexists. split; [lia|]. split; [reflexivity|]. intros E. vm_compute in E. discriminate. Qed.
Print Assumptions C66_bottom_refuted.
(** A transition of one row divides by zero, whatever the interface. *)
Theorem C66_one_row_refuted : forall cospi above opt a b nz grad dz zp c0 c1 m0, (opt = 1 \/ opt = 2)%Z -> (a < b)%Z -> 0 < dz -> grid_one cospi above opt a b nz dz grad dz zp c0 c1 m0 = None.
Proof.
  intros cospi above opt a b nz grad dz zp c0 c1 m0 Ho Hab D. unfold grid_one. rewrite (NINT_int (dz / dz) 1) by (change (inject_Z 1) with 1; field; lra). rewrite (proj2 (Z.ltb_lt a b) Hab).
  destruct Ho as [-> | ->]; reflexivity.
Qed.
Print Assumptions C66_one_row_refuted.
(** above=1 with a transition: the part below the interface is filled. *)
Theorem C66_above_gradient_refuted : forall cospi opt a b nz gradlen grad dz zp c0 c1 m0, (opt = 1 \/ opt = 2)%Z ->
  grid_one cospi true opt a b nz gradlen grad dz zp c0 c1 m0 = grid_one cospi false opt a b nz gradlen grad dz zp c0 c1 m0.
Proof. intros cospi opt a b nz gradlen grad dz zp c0 c1 m0 [-> | ->]; reflexivity. Qed.
Print Assumptions C66_above_gradient_refuted.
(** Shear velocities without densities: a store through NULL. *)
Theorem C66_shear_without_density_refuted : forall cospi above opt a b nz gradlen dz zp rcp rcs rro gcp cs, (opt = 1 \/ opt = 2 \/ opt = 3)%Z -> (a < b)%Z ->
  grid cospi above opt a b nz gradlen dz zp rcp rcs rro gcp (Some cs) None = None.
Proof. intros cospi above opt a b nz gradlen dz zp rcp rcs rro gcp cs Ho Hab. unfold grid. rewrite (proj2 (Z.ltb_lt a b) Hab). destruct Ho as [->|[->| ->]]; reflexivity. Qed.
Print Assumptions C66_shear_without_density_refuted.
(** An interface at the surface: the linear transition overshoots the velocity of the layer. *)
Theorem C66_surface_refuted : forall cospi g c0 c1 grad v, (0 < g)%Z -> c0 < c1 -> below cospi 1 g 0 c0 c1 grad g v -> c1 < v.
Proof.
  intros cospi g c0 c1 grad v Hg L B. unfold below in B. cbn [Z.eqb Pos.eqb] in B. rewrite (proj2 (Z.leb_le g (0 + g))) in B by lia. cbv zeta in B. rewrite B.
  assert (P : 0 < inject_Z g) by (change 0 with (inject_Z 0); rewrite <- Zlt_Qlt; exact Hg).
  assert (T : 1 < inject_Z (g - 0 + 1) / inject_Z g) by (apply Qlt_shift_div_l; [exact P|]; rewrite Qmult_1_l; rewrite <- Zlt_Qlt; lia). nra.
Qed.
Print Assumptions C66_surface_refuted.

(** * C67: a stack of layers *)
(** Any number of layers with points on the grid, one velocity each and room for their transitions:
    the grid has at every column and row the value of the last layer which covers the column and
    whose interface is not below the row, and nothing outside the grid changes.  The description has
    exactly one value. *)
Theorem C67_layers : forall cospi gradt nx nz dx dz cp0 m0 ls, wave_ext cospi -> (gradt = 1 \/ gradt = 2)%Z -> 0 < dz -> (0 <= nz)%Z -> Forall (valid nx nz dx dz) ls ->
  exists m, makemod cospi gradt nx nz dx dz cp0 ls m0 = Some m /\
    (forall c j, (0 <= c < nx)%Z -> (0 <= j < nz)%Z -> rock cospi gradt dx dz cp0 (rev (map (stratum_of dz) ls)) c j (m (c * nz + j)%Z) /\
       forall v, rock cospi gradt dx dz cp0 (rev (map (stratum_of dz) ls)) c j v -> v == m (c * nz + j)%Z) /\
    (forall t, ~ (0 <= t < nx * nz)%Z -> m t = m0 t).
Proof.
  intros cospi gradt nx nz dx dz cp0 m0 ls X Hg Dz Hz V. destruct (stack_ok cospi X gradt nx nz dx dz cp0 m0 ls Hg Dz Hz V) as (s & E & _ & R & Fr).
  exists (m_grid s). unfold makemod. rewrite E. split; [reflexivity|]. split; [|exact Fr]. intros c j Hc Hj. split; [apply R; assumption|].
  intros v Hv. apply (rock_unique cospi X gradt dx dz cp0 (rev (map (stratum_of dz) ls)) c j); [exact Dz| |exact Hv|apply R; assumption].
  apply Forall_rev. apply Forall_map. revert V. apply Forall_impl. intros l ((m & G) & _). exact (grid_increasing _ _ _ _ _ G).
Qed.
Print Assumptions C67_layers.
(** Four columns of four rows: a flat layer at depth 1, and a dipping one over the columns 1 to 3 *)
Definition flat : layer := mkLayer [0; 3] [1; 1] 0 [20] 0 0.
Definition dipping : layer := mkLayer [1; 3] [3; 1] 1 [30] 0 0.
Example C67_nonvacuous : Forall (valid 4 4 1 1) [flat; dipping] /\ exists m, makemod cos0 1 4 4 1 1 10 [flat; dipping] (fun _ => 0) = Some m /\
  map (fun t => Qred (m t)) [0; 1; 2; 3; 4; 5; 6; 7; 8; 9; 10; 11; 12; 13; 14; 15; 16]%Z = [10; 20; 20; 20; 10; 20; 20; 30; 10; 20; 30; 30; 10; 30; 30; 30; 0].
Proof.
  split; [|eexists; split; [vm_compute; reflexivity|reflexivity]].
  assert (H : forall a poly x z cp, (0 <= a < 3)%Z -> x = [inject_Z a; 3] -> (poly = 0 \/ poly = 1)%Z -> valid 4 4 1 1 (mkLayer x z poly [cp] 0 0)).
  { intros a poly x z cp Ha -> Hp. split; [|split; [cbn [l_poly]; lia|split; [cbn [l_poly]; lia|split; [reflexivity|]]]].
    - exists (fun i => if (i =? 0)%Z then a else 3%Z). cbn [stratum_of s_x s_n length l_x]. split; [reflexivity|]. split; [lia|]. split; [cbn [Z.eqb]; lia|]. split; [cbn; lia|]. split.
      + intros i Hi. assert (C : (i = 0 \/ i = 1)%Z) by lia. destruct C as [->| ->]; cbn [Z.eqb Z.to_nat nth Pos.to_nat Pos.iter_op Nat.add]; [ring|reflexivity].
      + intros i j Hi Hj. replace i with 0%Z by lia. replace j with 1%Z by lia. cbn [Z.eqb]. lia.
    - intros g. cbn [stratum_of s_trans l_gradlen]. destruct (Qlt_le_dec 0 0) as [L|L]; [lra|discriminate]. }
  constructor; [apply (H 0%Z); [lia|reflexivity|now left]|]. constructor; [apply (H 1%Z); [lia|reflexivity|now right]|constructor].
Qed.

(** * C68: smoothing and reflectivity *)
(** The coarse grid of supersmooth: the velocity is the weighted harmonic mean and the density the
    weighted arithmetic mean of the 25 values around each coarse point, all of them inside the grid;
    the last column and row repeat the ones before.  Both stay within the bounds of the model. *)
Theorem C68_supersmooth : forall W nx nz d cp cs ro nxout nzout cp' cs' ro' lo hi rlo rhi,
  (forall a b, (-2 <= a <= 2)%Z -> (-2 <= b <= 2)%Z -> 0 < W a b) -> (5 <= nx)%Z -> (5 <= nz)%Z -> 0 < lo ->
  (forall t, (0 <= t < nx * nz)%Z -> lo <= cp t /\ cp t <= hi /\ rlo <= ro t /\ ro t <= rhi) ->
  supersmooth W nx nz d cp cs ro = (nxout, nzout, cp', cs', ro') ->
  nxout = ((nx - 1) / 4 + 1)%Z /\ nzout = ((nz - 1) / 4 + 1)%Z /\
  forall ix iz, (0 <= ix < nxout)%Z -> (0 <= iz < nzout)%Z ->
    let cx := Z.min ix (nxout - 2) in
    let cz := Z.min iz (nzout - 2) in
    (forall a b, (-2 <= a <= 2)%Z -> (-2 <= b <= 2)%Z -> (0 <= 4 * cx + 2 + a < nx)%Z /\ (0 <= 4 * cz + 2 + b < nz)%Z) /\
    harmonic_at W (fun c j => cp (c * nz + j)%Z) cx cz (cp' (ix * nz + iz)%Z) /\ mean_at W (fun c j => ro (c * nz + j)%Z) cx cz (ro' (ix * nz + iz)%Z) /\
    lo <= cp' (ix * nz + iz)%Z /\ cp' (ix * nz + iz)%Z <= hi /\ rlo <= ro' (ix * nz + iz)%Z /\ ro' (ix * nz + iz)%Z <= rhi.
Proof.
  intros W nx nz d cp cs ro nxout nzout cp' cs' ro' lo hi rlo rhi HW Hx Hz Hlo Hb E. unfold supersmooth in E. cbv zeta in E.
  injection E as E1 E2 E3 _ E4. split; [symmetry; exact E1|]. split; [symmetry; exact E2|].
  rewrite E1, E2 in E3, E4. assert (Nx : (2 <= nxout /\ 4 * (nxout - 1) <= nx - 1)%Z) by (pose proof (Z.div_mod (nx - 1) 4 ltac:(lia)); pose proof (Z.mod_pos_bound (nx - 1) 4 ltac:(lia)); lia).
  assert (Nz : (2 <= nzout /\ 4 * (nzout - 1) <= nz - 1)%Z) by (pose proof (Z.div_mod (nz - 1) 4 ltac:(lia)); pose proof (Z.mod_pos_bound (nz - 1) 4 ltac:(lia)); lia).
  clear E1 E2. intros ix iz Hix Hiz cx cz.
  assert (In : forall a b, (-2 <= a <= 2)%Z -> (-2 <= b <= 2)%Z -> (0 <= 4 * cx + 2 + a < nx)%Z /\ (0 <= 4 * cz + 2 + b < nz)%Z) by (unfold cx, cz; lia).
  assert (At : forall a b, (-2 <= a <= 2)%Z -> (-2 <= b <= 2)%Z -> (0 <= (4 * cx + 2 + a) * nz + (4 * cz + 2 + b) < nx * nz)%Z).
  { intros a b Ha Hb'. destruct (In a b Ha Hb') as [I1 I2]. set (p := (4 * cx + 2 + a)%Z) in *. set (q := (4 * cz + 2 + b)%Z) in *. clearbody p q. clear - I1 I2. nia. }
  assert (C1 : cp' (ix * nz + iz)%Z = smooth_slow W nz cp cx cz).
  { rewrite <- E3. rewrite store_coarse_ok by lia. destruct (smooth_grid_ok (smooth_slow W nz cp) nxout nzout d ltac:(lia) ltac:(lia)) as [A _]. apply A; assumption. }
  assert (C2 : ro' (ix * nz + iz)%Z = smooth_mean W nz ro cx cz).
  { rewrite <- E4. rewrite store_coarse_ok by lia. match goal with |- smooth_grid _ _ _ ?dd _ = _ => destruct (smooth_grid_ok (smooth_mean W nz ro) nxout nzout dd ltac:(lia) ltac:(lia)) as [A _] end. apply A; assumption. }
  assert (Hh : harmonic_at W (fun c j => cp (c * nz + j)%Z) cx cz (cp' (ix * nz + iz)%Z)).
  { rewrite C1. apply slow_ok; [exact HW|]. intros a b Ha Hb'. destruct (Hb _ (At a b Ha Hb')) as (P & _). lra. }
  assert (Hm : mean_at W (fun c j => ro (c * nz + j)%Z) cx cz (ro' (ix * nz + iz)%Z)) by (rewrite C2; apply mean_ok; exact HW).
  split; [exact In|]. split; [exact Hh|]. split; [exact Hm|].
  destruct (harmonic_bounds W (fun c j => cp (c * nz + j)%Z) cx cz (cp' (ix * nz + iz)%Z) lo hi HW Hlo) as [B1 B2]; [intros a b Ha Hb'; destruct (Hb _ (At a b Ha Hb')) as (P1 & P2 & _); split; assumption|exact Hh|].
  destruct (mean_bounds W (fun c j => ro (c * nz + j)%Z) cx cz (ro' (ix * nz + iz)%Z) rlo rhi HW) as [B3 B4]; [intros a b Ha Hb'; destruct (Hb _ (At a b Ha Hb')) as (_ & _ & P1 & P2); split; assumption|exact Hm|].
  repeat split; assumption.
Qed.
Print Assumptions C68_supersmooth.
Example C68_nonvacuous : exists cp' ro', supersmooth (fun _ _ => 1) 9 9 (fun _ => 0) (fun _ => 3) (fun _ => 7) (fun t => inject_Z t) = (3%Z, 3%Z, cp', (fun _ => 7), ro') /\
  map (fun t => Qred (cp' t)) [0; 1; 2; 18]%Z = [3; 3; 3; 3] /\ map (fun t => Qred (ro' t)) [0; 1; 2; 9; 10; 11; 18]%Z = [20; 24; 24; 56; 60; 60; 56].
Proof. eexists. eexists. split; [reflexivity|]. split; reflexivity. Qed.
(** The shear velocities are not smoothed: the coarse grid keeps the corner of the fine one. *)
Theorem C68_shear_refuted : exists nx nz cs lo nxout nzout cp' cs' ro', (0 <= lo) /\ supersmooth (fun _ _ => 1) nx nz (fun _ => 0) (fun _ => 3) cs (fun _ => 1) = (nxout, nzout, cp', cs', ro') /\
  (forall ix iz, (4 <= ix < nx)%Z -> (4 <= iz < nz)%Z -> cs (ix * nz + iz)%Z == 9) /\ exists ix iz, (1 <= ix < nxout)%Z /\ (1 <= iz < nzout)%Z /\ cs' (ix * nz + iz)%Z == 1.
Proof.
  exists 9%Z, 9%Z, (fun t => if (t <? 36)%Z then 1 else 9), 1. do 5 eexists. split; [discriminate|]. split; [reflexivity|]. split.
  - intros ix iz Hx Hz. rewrite (proj2 (Z.ltb_ge _ _)) by lia. reflexivity.
  - exists 1%Z, 1%Z. split; [vm_compute; split; [discriminate|reflexivity]|]. split; [vm_compute; split; [discriminate|reflexivity]|]. reflexivity.
Qed.
Print Assumptions C68_shear_refuted.
(** The reflectivity of positive impedances: the quotient of difference and sum of the impedances of
    neighbouring rows, between -1 and 1; zero in the last row and in the last column. *)
Theorem C68_reflectivity : forall nx nz ro cp d, (1 <= nx)%Z -> (1 <= nz)%Z -> (forall t, (0 <= t < nx * nz)%Z -> 0 < ro t /\ 0 < cp t) ->
  exists r, reflectivity nx nz ro cp d = Some r /\
    (forall ix iz, (0 <= ix < nx - 1)%Z -> (0 <= iz < nz - 1)%Z ->
       let upper := ro (ix * nz + iz)%Z * cp (ix * nz + iz)%Z in
       let lower := ro (ix * nz + (iz + 1))%Z * cp (ix * nz + (iz + 1))%Z in
       r (ix * nz + iz)%Z * (lower + upper) == lower - upper /\ -1 < r (ix * nz + iz)%Z /\ r (ix * nz + iz)%Z < 1) /\
    (forall ix iz, (0 <= ix < nx)%Z -> (0 <= iz < nz)%Z -> (ix = nx - 1 \/ iz = nz - 1)%Z -> r (ix * nz + iz)%Z = 0) /\
    (forall t, ~ (0 <= t < nx * nz)%Z -> r t = d t).
Proof.
  intros nx nz ro cp d Hx Hz Hp. destruct (reflectivity_ok nx nz ro cp d Hx Hz Hp) as (r & E & A & B & C). exists r. split; [exact E|]. split; [|split; assumption].
  intros ix iz H1 H2 upper lower. specialize (A ix iz H1 H2). unfold impedance in A. fold upper in A. fold lower in A. split; [exact A|].
  assert (P1 : 0 < upper). { unfold upper. assert (Q : (0 <= ix * nz + iz < nx * nz)%Z) by nia. destruct (Hp _ Q). nra. }
  assert (P2 : 0 < lower). { unfold lower. assert (Q : (0 <= ix * nz + (iz + 1) < nx * nz)%Z) by nia. destruct (Hp _ Q). nra. }
  clearbody upper lower. split; nra.
Qed.
Print Assumptions C68_reflectivity.
Example C68_reflectivity_nonvacuous : exists r, reflectivity 2 3 (fun _ => 1) (pts [1; 3; 3; 1; 3; 3]) (fun _ => 9) = Some r /\ map (fun t => Qred (r t)) [0; 1; 2; 3; 4; 5; 6]%Z = [1 # 2; 0; 0; 0; 0; 0; 9].
Proof. eexists. split; [vm_compute; reflexivity|reflexivity]. Qed.
