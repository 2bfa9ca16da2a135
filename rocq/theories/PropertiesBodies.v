(** Properties of the bodies of makemod (C91). *)
From Coq Require Import ZArith Reals List Bool Lia Lra.
From Verif Require Import ListAux FdKernels FdProofs FdOutputProofs Marchenko MarchenkoProofs PropertiesDft PropertiesSource PropertiesBasop BodiesSpec Bodies.
Import ListNotations.
Local Open Scope Z_scope.

(** ** auxiliary *)
Definition cell_dec (a b : cell) : {a = b} + {a <> b}. Proof. unfold cell in *. decide equality; apply Z.eq_dec. Defined.
Lemma nint_pos x k : (0 <= x)%R -> (k < nint x + 1 <-> (IZR k <= x + / 2)%R) /\ (nint x < k + 1 <-> (x + / 2 < IZR (k + 1))%R).
Proof.
  intros H. assert (E : nint x = Int_part (x + / 2)).
  { unfold nint. destruct (Rlt_dec 0 x); [reflexivity|]. assert (X : x = 0%R) by lra. subst x. rewrite (Int_part_is (/ 2 - 0) 0), (Int_part_is (0 + / 2) 0); [reflexivity| |]; cbn [IZR]; lra. }
  rewrite E. split; [rewrite <- Int_part_le; lia|rewrite <- Int_part_lt; reflexivity].
Qed.
Lemma fill_ok {V} cells : forall (m : cell -> V) v c, (In c cells -> fill m cells v c = v) /\ (~ In c cells -> fill m cells v c = m c).
Proof.
  assert (Q : forall a b, cell_eqb a b = true <-> a = b). { intros [a1 a2] [b1 b2]. unfold cell_eqb. cbn. rewrite andb_true_iff, !Z.eqb_eq. split; [intros [-> ->]; reflexivity|intros E; injection E; auto]. }
  unfold fill. induction cells as [|h t IH]; intros m v c; cbn [fold_left]; [split; [intros []|reflexivity]|]. destruct (IH (fun d => if cell_eqb d h then v else m d) v c) as [I1 I2]. split.
  - intros [<-|H]; [|now apply I1].
    destruct (in_dec cell_dec h t) as [H|H]; [now apply I1|]. rewrite I2 by exact H. now rewrite (proj2 (Q h h) eq_refl).
  - intros H. rewrite I2 by (intros X; apply H; now right). destruct (cell_eqb c h) eqn:E; [|reflexivity]. exfalso. apply H. left. symmetry. now apply Q.
Qed.
Lemma paint_ok {V} nxp cells (v : Z -> V) m (inside : Z -> cell -> Prop) : (forall i c, 0 <= i < nxp -> In c (cells i) <-> inside i c) -> painted nxp inside v m (paint nxp cells v m).
Proof.
  intros H. unfold paint. assert (G : forall k : nat, Z.of_nat k <= nxp -> painted (Z.of_nat k) inside v m (fold_left (fun m i => fill m (cells i) (v i)) (range 0 (Z.of_nat k)) m)).
  { induction k as [|k IH]; intros Hk c.
    - rewrite (range_nil 0 (Z.of_nat 0)) by lia. right. split; [intros i Hi; lia|reflexivity].
    - replace (Z.of_nat (S k)) with (Z.of_nat k + 1) by lia. rewrite range_snoc by lia. rewrite fold_left_app. cbn [fold_left]. destruct (fill_ok (cells (Z.of_nat k)) (fold_left (fun m i => fill m (cells i) (v i)) (range 0 (Z.of_nat k)) m) (v (Z.of_nat k)) c) as [F1 F2].
      destruct (in_dec cell_dec c (cells (Z.of_nat k))) as [I|I].
      + left. exists (Z.of_nat k). split; [lia|]. split; [apply H; [lia|exact I]|]. split; [intros j Hj; lia|]. now apply F1.
      + rewrite F2 by exact I. assert (N : ~ inside (Z.of_nat k) c) by (intros X; apply I, H; [lia|exact X]). destruct (IH ltac:(lia) c) as [(i & A & B & C & D)|[A B]].
        * left. exists i. split; [lia|]. split; [exact B|]. split; [|exact D]. intros j Hj. destruct (Z.eq_dec j (Z.of_nat k)) as [->|]; [exact N|apply C; lia].
        * right. split; [|exact B]. intros i Hi. destruct (Z.eq_dec i (Z.of_nat k)) as [->|]; [exact N|apply A; lia]. }
  destruct (Z_le_gt_dec 0 nxp) as [P|P].
  - specialize (G (Z.to_nat nxp) ltac:(lia)). rewrite Z2Nat.id in G by exact P. exact G.
  - rewrite (range_nil 0 nxp) by lia. intros c. right. split; [intros i Hi; lia|reflexivity].
Qed.

(** ** the cells of a body *)
Theorem C91_square ix iz w c : In c (makesquare ix iz w) <-> in_square (Z.quot w 2) (ix, iz) c.
Proof.
  destruct c as [a b]. unfold makesquare, in_square. cbn [fst snd]. rewrite Z.quot_opp_l by lia. rewrite in_flat_map. split.
  - intros (j & Hj & Hk). apply in_map_iff in Hk. destruct Hk as (k & E & Hk). apply in_range in Hj, Hk. apply pair_equal_spec in E. lia.
  - intros [A B]. exists (a - ix). split; [apply in_range; lia|]. apply in_map_iff. exists (b - iz). split; [f_equal; lia|apply in_range; lia].
Qed.
Print Assumptions C91_square.
(** A square of an odd width is one cell smaller; a square of one cell is not placed. *)
Theorem C91_odd_square_refuted : (forall ix iz h, makesquare ix iz (2 * h + 1) = makesquare ix iz (2 * h) \/ h < 0) /\ (forall ix iz, makesquare ix iz 1 = []).
Proof.
  split; [|reflexivity]. intros ix iz h. destruct (Z_lt_le_dec h 0) as [H|H]; [now right|left]. unfold makesquare. rewrite !Z.quot_opp_l by lia. rewrite !Z.quot_div_nonneg by lia.
  replace ((2 * h + 1) / 2) with h; [replace (2 * h / 2) with h; [reflexivity|]|]; [apply (Z.div_unique _ _ _ 0); lia|apply (Z.div_unique _ _ _ 1); lia].
Qed.
Print Assumptions C91_odd_square_refuted.
Theorem C91_diamond ix iz w c : 0 <= w -> In c (makediamond ix iz w) <-> in_diamond (Z.quot w 2) (ix, iz) c.
Proof.
  intros Hw. assert (H0 : 0 <= Z.quot w 2) by (apply Z.quot_pos; lia). destruct c as [a b]. unfold makediamond, in_diamond. cbv zeta. cbn [fst snd]. set (h := Z.quot w 2) in *. rewrite !in_app_iff, !in_flat_map. split.
  - intros [[E|[E|[]]]|[(j & Hj & Hk)|(j & Hj & Hk)]].
    + apply pair_equal_spec in E. lia.
    + apply pair_equal_spec in E. lia.
    + apply in_map_iff in Hk. destruct Hk as (k & E & Hk). apply in_range in Hj, Hk. apply pair_equal_spec in E. lia.
    + apply in_map_iff in Hk. destruct Hk as (k & E & Hk). apply in_range in Hj, Hk. apply pair_equal_spec in E. lia.
  - intros A. destruct (Z.eq_dec (a - ix) (- h)) as [L|L]; [left; left; f_equal; lia|]. destruct (Z.eq_dec (a - ix) h) as [Rr|Rr]; [left; right; left; f_equal; lia|]. right.
    destruct (Z_le_gt_dec (a - ix) 0); [left|right]; exists (a - ix); (split; [apply in_range; lia|]); apply in_map_iff; exists (b - iz); (split; [f_equal; lia|apply in_range; lia]).
Qed.
Print Assumptions C91_diamond.
Lemma distance_int j k : sqrt (IZR (j * j + k * k)) = sqrt (IZR j * IZR j + IZR k * IZR k). Proof. now rewrite plus_IZR, !mult_IZR. Qed.
(** The circle: the cells whose distance to the centre, in cells, rounds to at most half the width. *)
Theorem C91_circle ix iz w c : 0 <= w -> In c (makecircle ix iz w) <-> (distance c (ix, iz) < IZR (Z.quot w 2) + / 2)%R.
Proof.
  intros Hw. assert (H0 : 0 <= Z.quot w 2) by (apply Z.quot_pos; lia). destruct c as [a b]. unfold makecircle, distance. cbv zeta. cbn [fst snd]. set (h := Z.quot w 2) in *.
  assert (K : forall j k, (nint (sqrt (IZR (j * j + k * k))) <=? h) = true <-> (sqrt (IZR j * IZR j + IZR k * IZR k) < IZR h + / 2)%R).
  { intros j k. rewrite Z.leb_le, distance_int. destruct (nint_pos (sqrt (IZR j * IZR j + IZR k * IZR k)) h (sqrt_pos _)) as [_ N]. rewrite plus_IZR in N. split; intros X.
    - assert (Y : nint (sqrt (IZR j * IZR j + IZR k * IZR k)) < h + 1) by lia. apply N in Y. lra.
    - enough (nint (sqrt (IZR j * IZR j + IZR k * IZR k)) < h + 1) by lia. apply N. lra. }
  rewrite in_flat_map. split.
  - intros (j & Hj & Hc). apply in_flat_map in Hc. destruct Hc as (k & Hk & Hc). destruct (nint (sqrt (IZR (j * j + k * k))) <=? h) eqn:E; [|destruct Hc]. destruct Hc as [Hc|[]]. apply pair_equal_spec in Hc. destruct Hc as [<- <-].
    apply K in E. replace (ix + j - ix) with j by ring. replace (iz + k - iz) with k by ring. exact E.
  - intros D. assert (B : - h <= a - ix <= h /\ - h <= b - iz <= h).
    { assert (Q : forall u v : Z, (sqrt (IZR u * IZR u + IZR v * IZR v) < IZR h + / 2)%R -> - h <= u <= h).
      { intros u v S. assert (P : (IZR (Z.abs u) < IZR (h + 1))%R).
        { rewrite plus_IZR. rewrite abs_IZR. apply Rle_lt_trans with (sqrt (IZR u * IZR u + IZR v * IZR v)); [|lra]. rewrite <- sqrt_Rsqr_abs. apply sqrt_le_1_alt. unfold Rsqr. pose proof (Rle_0_sqr (IZR v)) as V. unfold Rsqr in V. lra. }
        apply lt_IZR in P. lia. }
      split; [apply (Q _ _ D)|]. apply (Q (b - iz) (a - ix)). rewrite Rplus_comm. exact D. }
    exists (a - ix). split; [apply in_range; lia|]. apply in_flat_map. exists (b - iz). split; [apply in_range; lia|]. rewrite (proj2 (K _ _) D). left. f_equal; lia.
Qed.
Print Assumptions C91_circle.
(** The ellipse: exactly the cells of the model inside it. *)
Theorem C91_ellipse nx nz dx dz r1 r2 ixm izm c : (0 < dx -> 0 < dz -> 0 < r1 -> 0 < r2 ->
  In c (ellipse_cells nx nz dx dz r1 r2 ixm izm) <-> in_model nx nz c /\ in_ellipse dx dz r1 r2 (ixm, izm) c)%R.
Proof.
  intros Dx Dz R1 R2. destruct c as [a b]. unfold ellipse_cells, in_model, in_ellipse. cbv zeta. cbn [fst snd].
  assert (U : forall u w, (sqrt (u * u + w * w) <= 1 <-> u * u + w * w <= 1)%R).
  { intros u w. pose proof (Rle_0_sqr u) as A. pose proof (Rle_0_sqr w) as B. unfold Rsqr in *. split; intros S.
    - rewrite <- (sqrt_sqrt (u * u + w * w)) by lra. pose proof (sqrt_pos (u * u + w * w)). nra.
    - rewrite <- sqrt_1. apply sqrt_le_1_alt. exact S. }
  assert (Bound : forall n d r v : R, (0 < d -> 0 < r -> n * d / r * (n * d / r) + v * v <= 1 -> Rabs n <= r / d)%R).
  { intros n d r v D Rr S. pose proof (Rle_0_sqr v) as B. unfold Rsqr in B. assert (Q : (Rabs (n * d / r) <= 1)%R).
    { apply Rsqr_incr_0_var; [|lra]. rewrite <- Rsqr_abs. unfold Rsqr. lra. }
    unfold Rdiv in Q. rewrite !Rabs_mult, (Rabs_pos_eq d), (Rabs_pos_eq (/ r)) in Q by (try apply Rlt_le, Rinv_0_lt_compat; lra).
    apply (Rmult_le_reg_r d); [exact D|]. replace (r / d * d)%R with r by (field; lra). apply (Rmult_le_compat_r r) in Q; [|lra]. replace (Rabs n * d * / r * r)%R with (Rabs n * d)%R in Q by (field; lra). lra. }
  assert (Box : forall (m k : Z) d r v, (0 < d -> 0 < r -> IZR (k - m) * d / r * (IZR (k - m) * d / r) + v * v <= 1)%R -> (0 < d)%R -> (0 < r)%R -> m - nint (r / d) <= k <= m + nint (r / d)).
  { intros m k d r v S D Rr. specialize (Bound _ d r v D Rr (S D Rr)). rewrite <- abs_IZR in Bound. assert (P : (0 < r / d)%R) by (apply Rdiv_lt_0_compat; assumption).
    destruct (nint_pos (r / d) (Z.abs (k - m)) ltac:(lra)) as [N _]. assert (Z.abs (k - m) < nint (r / d) + 1) by (apply N; lra). lia. }
  rewrite in_flat_map. split.
  - intros (ix & Hx & Hc). apply in_flat_map in Hc. destruct Hc as (iz & Hz & Hc). destruct (Rle_dec _ 1) as [S|]; [|destruct Hc]. destruct Hc as [Hc|[]]. apply pair_equal_spec in Hc. destruct Hc as [<- <-]. apply in_range in Hx, Hz. apply U in S. conjs; try lia. exact S.
  - intros [[A B] S]. exists a. pose proof (Box ixm a dx r2 _ (fun _ _ => S) Dx R2). assert (S' : (IZR (b - izm) * dz / r1 * (IZR (b - izm) * dz / r1) + IZR (a - ixm) * dx / r2 * (IZR (a - ixm) * dx / r2) <= 1)%R) by lra. pose proof (Box izm b dz r1 _ (fun _ _ => S') Dz R1).
    split; [apply in_range; lia|]. apply in_flat_map. exists b. split; [apply in_range; lia|]. destruct (Rle_dec _ 1) as [_|N]; [left; reflexivity|]. exfalso. apply N, U, S.
Qed.
Print Assumptions C91_ellipse.

(** ** the grids *)
(** body i at the nearest cell of point i *)
Definition centre (x z : Z -> R) (dx dz : R) (i : Z) : cell := (nint (x i / dx), nint (z i / dz)).
Definition diffractor (type w : Z) (o c : cell) : Prop := if type =? 1 then in_diamond (Z.quot w 2) o c else if type =? 2 then (distance c o < IZR (Z.quot w 2) + / 2)%R else in_square (Z.quot w 2) o c.
(** every grid that is present is painted with its own values *)
Definition painted_media {V} (nxp : Z) (inside : Z -> cell -> Prop) (v : @values V) (m m' : media) : Prop :=
  painted nxp inside (vcp v) (gridcp m) (gridcp m') /\
  match gridcs m, gridcs m' with Some a, Some b => painted nxp inside (vcs v) a b | None, None => True | _, _ => False end /\
  match gridro m, gridro m' with Some a, Some b => painted nxp inside (vro v) a b | None, None => True | _, _ => False end.
Lemma place_ok {V} nxp cells (inside : Z -> cell -> Prop) (v : @values V) m : (forall i c, 0 <= i < nxp -> In c (cells i) <-> inside i c) -> ~ (gridcs m <> None /\ gridro m = None) ->
  exists m', place nxp cells v m = Some m' /\ painted_media nxp inside v m m'.
Proof.
  intros H N. unfold place. destruct (gridcs m) as [cs|] eqn:E1, (gridro m) as [ro|] eqn:E2; [| |eexists; split; [reflexivity|]..].
  - eexists. split; [reflexivity|]. unfold painted_media. rewrite E1, E2. cbn. conjs; now apply paint_ok.
  - exfalso. apply N. split; congruence.
  - unfold painted_media. rewrite E1, E2. cbn. conjs; try exact I; now apply paint_ok.
  - unfold painted_media. rewrite E1, E2. cbn. conjs; try exact I; now apply paint_ok.
Qed.
Theorem C91_diffraction {V} nxp x z dx dz w type (v : @values V) m : 0 <= w -> ~ (gridcs m <> None /\ gridro m = None) ->
  exists m', diffraction nxp x z dx dz w type v m = Some m' /\ painted_media nxp (fun i => diffractor type w (centre x z dx dz i)) v m m'.
Proof.
  intros Hw N. apply place_ok; [|exact N]. intros i c _. unfold shape, diffractor, centre. destruct (type =? 1); [now apply C91_diamond|]. destruct (type =? 2); [now apply C91_circle|apply C91_square].
Qed.
Theorem C91_elipse {V} nxp x z dx dz nx nz r1 r2 (v : @values V) m : (0 < dx)%R -> (0 < dz)%R -> (0 < r1)%R -> (0 < r2)%R -> ~ (gridcs m <> None /\ gridro m = None) ->
  exists m', elipse nxp x z dx dz nx nz r1 r2 v m = Some m' /\ painted_media nxp (fun i c => in_model nx nz c /\ in_ellipse dx dz r1 r2 (centre x z dx dz i) c) v m m'.
Proof. intros Dx Dz R1 R2 N. apply place_ok; [|exact N]. intros i c _. now apply C91_ellipse. Qed.
Print Assumptions C91_diffraction.
Print Assumptions C91_elipse.
(** With shear velocities but without densities a grid that does not exist is written. *)
Theorem C91_no_density_refuted {V} nxp x z dx dz w type nx nz r1 r2 (v : @values V) cp cs : 1 <= nxp ->
  diffraction nxp x z dx dz w type v (mkM cp (Some cs) None) = None /\ elipse nxp x z dx dz nx nz r1 r2 v (mkM cp (Some cs) None) = None.
Proof. intros H. unfold diffraction, elipse, place. cbn. destruct (Z.leb_spec nxp 0); [lia|]. split; reflexivity. Qed.
Print Assumptions C91_no_density_refuted.
(** A diffractor inside the model by its half width writes inside the model; one nearer to a side does not. *)
Theorem C91_diffractor_safe nx nz type w ix iz c : 0 <= w -> let h := Z.quot w 2 in h <= ix < nx - h -> h <= iz < nz - h -> In c (shape type ix iz w) -> in_model nx nz c.
Proof.
  intros Hw h Hx Hz H. unfold shape in H. destruct c as [a b]. unfold in_model. cbn [fst snd]. destruct (type =? 1).
  - apply C91_diamond in H; [|exact Hw]. unfold in_diamond in H. cbn [fst snd] in H. fold h in H. lia.
  - destruct (type =? 2).
    + unfold makecircle in H. cbv zeta in H. fold h in H. apply in_flat_map in H. destruct H as (j & Hj & H). apply in_flat_map in H. destruct H as (k & Hk & H). apply in_range in Hj, Hk.
      destruct (nint _ <=? h); [|destruct H]. destruct H as [H|[]]. apply pair_equal_spec in H. lia.
    + apply C91_square in H. unfold in_square in H. cbn [fst snd] in H. fold h in H. lia.
Qed.
Theorem C91_diffractor_outside_refuted type w ix iz : 2 <= w -> ix < Z.quot w 2 -> exists c, In c (shape type ix iz w) /\ fst c < 0.
Proof.
  intros Hw Hx. exists (ix - Z.quot w 2, iz). split; [|cbn; lia]. assert (H0 : 1 <= Z.quot w 2) by (apply Z.quot_le_lower_bound; lia). unfold shape. destruct (type =? 1).
  - apply C91_diamond; [lia|]. unfold in_diamond. cbn [fst snd]. lia.
  - destruct (type =? 2).
    + apply C91_circle; [lia|]. unfold distance. cbn [fst snd]. replace (ix - Z.quot w 2 - ix) with (- Z.quot w 2) by ring. rewrite Z.sub_diag, opp_IZR. assert (P : (1 <= IZR (Z.quot w 2))%R) by (apply IZR_le; exact H0).
      replace (- IZR (Z.quot w 2) * - IZR (Z.quot w 2) + 0 * 0)%R with (IZR (Z.quot w 2) * IZR (Z.quot w 2))%R by ring. rewrite sqrt_square by lra. lra.
    + apply C91_square. unfold in_square. cbn [fst snd]. lia.
Qed.
Print Assumptions C91_diffractor_safe.
Print Assumptions C91_diffractor_outside_refuted.
(** The interface that is reported: the depth of the last point of a column, 0 in the other columns. *)
Lemma depth_loop {V} nxp (a : Z -> Z) (v : Z -> V) m c : (exists i, 0 <= i < nxp /\ a i = c /\ (forall j, i < j < nxp -> a j <> c) /\ fold_left (fun m i => upd m (a i) (v i)) (range 0 nxp) m c = v i) \/
  ((forall i, 0 <= i < nxp -> a i <> c) /\ fold_left (fun m i => upd m (a i) (v i)) (range 0 nxp) m c = m c).
Proof.
  assert (G : forall k : nat, (exists i, 0 <= i < Z.of_nat k /\ a i = c /\ (forall j, i < j < Z.of_nat k -> a j <> c) /\ fold_left (fun m i => upd m (a i) (v i)) (range 0 (Z.of_nat k)) m c = v i) \/
  ((forall i, 0 <= i < Z.of_nat k -> a i <> c) /\ fold_left (fun m i => upd m (a i) (v i)) (range 0 (Z.of_nat k)) m c = m c)).
  { induction k as [|k IH].
    - rewrite (range_nil 0 (Z.of_nat 0)) by lia. right. split; [intros i Hi; lia|reflexivity].
    - replace (Z.of_nat (S k)) with (Z.of_nat k + 1) by lia. rewrite range_snoc by lia. rewrite fold_left_app. cbn [fold_left]. rewrite upd_eq. destruct (Z.eqb_spec c (a (Z.of_nat k))) as [E|E].
      + left. exists (Z.of_nat k). conjs; try lia. reflexivity.
      + destruct IH as [(i & A & B & C & D)|[A B]].
        * left. exists i. split; [lia|]. split; [exact B|]. split; [|exact D]. intros j Hj. destruct (Z.eq_dec j (Z.of_nat k)) as [->|]; [congruence|apply C; lia].
        * right. split; [|exact B]. intros i Hi. destruct (Z.eq_dec i (Z.of_nat k)) as [->|]; [congruence|apply A; lia]. }
  destruct (Z_le_gt_dec 0 nxp) as [P|P].
  - specialize (G (Z.to_nat nxp)). rewrite Z2Nat.id in G by exact P. exact G.
  - rewrite (range_nil 0 nxp) by lia. right. split; [intros i Hi; lia|reflexivity].
Qed.
Theorem C91_depths nx nxp x z dx dz itf zp c : 0 <= c < nx -> let r := depths nx nxp x z dx dz itf zp in let col i := fst (centre x z dx dz i) in
  (exists i, 0 <= i < nxp /\ col i = c /\ (forall j, i < j < nxp -> col j <> c) /\ fst r c = z i /\ snd r c = snd (centre x z dx dz i)) \/
  ((forall i, 0 <= i < nxp -> col i <> c) /\ fst r c = 0%R /\ snd r c = 0).
Proof.
  intros Hc r col. unfold r, depths, col, centre. cbn [fst snd].
  set (i0 := fold_left (fun m i => upd m i 0%R) (range 0 nx) itf). set (z0 := fold_left (fun m i => upd m i 0) (range 0 nx) zp).
  assert (I0 : i0 c = 0%R). { unfold i0. destruct (depth_loop nx (fun i => i) (fun _ => 0%R) itf c) as [(i & _ & _ & _ & E)|[A _]]; [exact E|exfalso; apply (A c Hc eq_refl)]. }
  assert (Z0 : z0 c = 0). { unfold z0. destruct (depth_loop nx (fun i => i) (fun _ => 0) zp c) as [(i & _ & _ & _ & E)|[A _]]; [exact E|exfalso; apply (A c Hc eq_refl)]. }
  destruct (depth_loop nxp (fun i => nint (x i / dx)) z i0 c) as [(i & A & B & C & D)|[A B]], (depth_loop nxp (fun i => nint (x i / dx)) (fun i => nint (z i / dz)) z0 c) as [(i' & A' & B' & C' & D')|[A' B']].
  - left. assert (i' = i) as ->. { destruct (Z.lt_trichotomy i i') as [T|[T|T]]; [exfalso; apply (C i'); [lia|exact B']|congruence|exfalso; apply (C' i); [lia|exact B]]. } exists i. conjs; try assumption; lia.
  - exfalso. exact (A' i A B).
  - exfalso. exact (A i' A' B').
  - right. split; [exact A|]. split; congruence.
Qed.
Print Assumptions C91_depths.

(** ** a concrete case: one ellipse, three grids *)
Example C91_nonvacuous : exists m' : @media Z, elipse 1 (fun _ => 4%R) (fun _ => 4%R) 1 1 10 10 2 3 (mkV (fun _ => 1) (fun _ => 2) (fun _ => 3)) (mkM (fun _ => 0) (Some (fun _ => 0)) (Some (fun _ => 0))) = Some m' /\ gridcp m' (4, 4) = 1 /\ gridcp m' (4, 7) = 0.
Proof.
  destruct (C91_elipse 1 (fun _ => 4%R) (fun _ => 4%R) 1 1 10 10 2 3 (mkV (fun _ => 1) (fun _ => 2) (fun _ => 3)) (mkM (fun _ => 0) (Some (fun _ => 0)) (Some (fun _ => 0)))) as (m' & E & P & _ & _); try lra; [intros [_ X]; discriminate X|].
  exists m'. split; [exact E|]. assert (C : centre (fun _ => 4%R) (fun _ => 4%R) 1 1 0 = (4, 4)).
  { unfold centre. replace (4 / 1)%R with 4%R by field. assert (N : nint 4 = 4) by (unfold nint; destruct (Rlt_dec 0 4); [apply Int_part_is; lra|lra]). now rewrite N. }
  split.
  - destruct (P (4, 4)) as [(i & _ & _ & _ & V)|[A _]]; [exact V|exfalso; apply (A 0); [lia|]]. rewrite C. unfold in_model, in_ellipse. cbn [fst snd]. rewrite !Z.sub_diag. split; [lia|]. unfold Rdiv. lra.
  - destruct (P (4, 7)) as [(i & Hi & [_ I] & _)|[_ V]]; [|exact V]. exfalso. assert (i = 0) as -> by lia. rewrite C in I. unfold in_ellipse in I. cbn [fst snd] in I. change (4 - 4) with 0 in I. change (7 - 4) with 3 in I. lra.
Qed.
