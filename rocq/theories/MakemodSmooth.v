(** Smoothing and reflectivity. *)
From Coq Require Import ZArith QArith Qabs List Bool Lia Lqa Setoid.
From Verif Require Import ListAux FdKernels FdProofs FdOutputProofs Marchenko MarchenkoProofs PropertiesMarchenko Makemod MakemodSpec MakemodProofs MakemodProofs2 MakemodProofs3 MakemodProofs4.
Import ListNotations.
Local Open Scope Q_scope.

Lemma fold_right_pos (l : list (Z * Z)) f : l <> [] -> (forall p, In p l -> 0 < f p) -> 0 < fold_right (fun p s => f p + s) 0 l.
Proof.
  induction l as [|p l IH]; intros N H; [contradiction|]. cbn [fold_right]. pose proof (H p (or_introl eq_refl)). destruct l as [|q l]; [cbn [fold_right]; lra|].
  assert (0 < fold_right (fun p s => f p + s) 0 (q :: l)) by (apply IH; [discriminate|intros r Hr; apply H; right; exact Hr]). lra.
Qed.
Lemma in_window p : In p (list_prod [-2; -1; 0; 1; 2]%Z [-2; -1; 0; 1; 2]%Z) -> (-2 <= fst p <= 2)%Z /\ (-2 <= snd p <= 2)%Z.
Proof. destruct p as [a b]. rewrite in_prod_iff. cbn [In fst snd]. lia. Qed.
Lemma sum25_pos f : (forall a b, (-2 <= a <= 2)%Z -> (-2 <= b <= 2)%Z -> 0 < f a b) -> 0 < sum25 f.
Proof. intros H. unfold sum25. apply (fold_right_pos _ (fun p => f (fst p) (snd p))); [discriminate|]. intros p Hp. destruct (in_window p Hp). apply H; assumption. Qed.

Section MEANS.
Variables (W : Z -> Z -> Q) (nz : Z) (m : Z -> Q) (ix iz : Z).
Hypothesis HW : forall a b, (-2 <= a <= 2)%Z -> (-2 <= b <= 2)%Z -> 0 < W a b.
Let cell (c j : Z) : Q := m (c * nz + j)%Z.
Lemma wsum_pos : 0 < wsum W. Proof. unfold wsum. rewrite stencil_sum. apply sum25_pos, HW. Qed.
Lemma mean_ok : mean_at W cell ix iz (smooth_mean W nz m ix iz).
Proof.
  unfold mean_at, smooth_mean. pose proof wsum_pos as P. rewrite (stencil_sum (fun a b => W a b * m ((4 * ix + 2 + a) * nz + (4 * iz + 2 + b))%Z)).
  assert (E : wsum W == sum25 W) by (unfold wsum; apply stencil_sum). rewrite E in P. rewrite E. unfold cell. set (S := sum25 (fun a b => W a b * _)). clearbody S. set (C := sum25 W) in *. clearbody C. field. lra.
Qed.
Lemma slow_ok : (forall a b, (-2 <= a <= 2)%Z -> (-2 <= b <= 2)%Z -> 0 < cell (4 * ix + 2 + a) (4 * iz + 2 + b)) -> harmonic_at W cell ix iz (smooth_slow W nz m ix iz).
Proof.
  intros Hm. unfold harmonic_at, smooth_slow. pose proof wsum_pos as P. rewrite (stencil_sum (fun a b => W a b / m ((4 * ix + 2 + a) * nz + (4 * iz + 2 + b))%Z)).
  assert (E : wsum W == sum25 W) by (unfold wsum; apply stencil_sum). rewrite E in P. rewrite E.
  assert (S : 0 < sum25 (fun a b => W a b / m ((4 * ix + 2 + a) * nz + (4 * iz + 2 + b))%Z)).
  { apply sum25_pos. intros a b Ha Hb. apply Qlt_shift_div_l; [apply (Hm a b Ha Hb)|]. rewrite Qmult_0_l. apply HW; assumption. }
  unfold cell. set (S' := sum25 (fun a b => W a b / _)) in *. clearbody S'. set (C := sum25 W) in *. clearbody C. field. split; lra.
Qed.
End MEANS.
Lemma mean_bounds W m ix iz v lo hi : (forall a b, (-2 <= a <= 2)%Z -> (-2 <= b <= 2)%Z -> 0 < W a b) ->
  (forall a b, (-2 <= a <= 2)%Z -> (-2 <= b <= 2)%Z -> lo <= m (4 * ix + 2 + a)%Z (4 * iz + 2 + b)%Z /\ m (4 * ix + 2 + a)%Z (4 * iz + 2 + b)%Z <= hi) -> mean_at W m ix iz v -> lo <= v /\ v <= hi.
Proof.
  intros HW Hm E. unfold mean_at in E. pose proof (sum25_pos W HW) as P.
  assert (A : lo * sum25 W <= v * sum25 W).
  { rewrite E, <- sum25_scale. apply sum25_le. intros a b Ha Hb. rewrite (Qmult_comm lo). apply Qmult_le_l; [apply HW; assumption|apply Hm; assumption]. }
  assert (B : v * sum25 W <= hi * sum25 W).
  { rewrite E, <- sum25_scale. apply sum25_le. intros a b Ha Hb. rewrite (Qmult_comm hi). apply Qmult_le_l; [apply HW; assumption|apply Hm; assumption]. }
  rewrite Qmult_le_r in A, B by exact P. split; assumption.
Qed.
Lemma harmonic_bounds W m ix iz v lo hi : (forall a b, (-2 <= a <= 2)%Z -> (-2 <= b <= 2)%Z -> 0 < W a b) -> 0 < lo ->
  (forall a b, (-2 <= a <= 2)%Z -> (-2 <= b <= 2)%Z -> lo <= m (4 * ix + 2 + a)%Z (4 * iz + 2 + b)%Z /\ m (4 * ix + 2 + a)%Z (4 * iz + 2 + b)%Z <= hi) -> harmonic_at W m ix iz v -> lo <= v /\ v <= hi.
Proof.
  intros HW L Hm E. unfold harmonic_at in E. pose proof (sum25_pos W HW) as P. set (S := sum25 (fun a b => W a b / _)) in *.
  assert (Hhi : 0 < hi) by (destruct (Hm 0%Z 0%Z ltac:(lia) ltac:(lia)); lra).
  assert (A : lo * S <= sum25 W).
  { unfold S. rewrite <- sum25_scale. apply sum25_le. intros a b Ha Hb. destruct (Hm a b Ha Hb) as [M1 M2]. pose proof (HW a b Ha Hb).
    assert (X : lo * (W a b / m (4 * ix + 2 + a)%Z (4 * iz + 2 + b)%Z) == lo * W a b / m (4 * ix + 2 + a)%Z (4 * iz + 2 + b)%Z) by (field; lra). rewrite X.
    apply Qle_shift_div_r; [lra|]. nra. }
  assert (B : sum25 W <= hi * S).
  { unfold S. rewrite <- sum25_scale. apply sum25_le. intros a b Ha Hb. destruct (Hm a b Ha Hb) as [M1 M2]. pose proof (HW a b Ha Hb).
    assert (X : hi * (W a b / m (4 * ix + 2 + a)%Z (4 * iz + 2 + b)%Z) == hi * W a b / m (4 * ix + 2 + a)%Z (4 * iz + 2 + b)%Z) by (field; lra). rewrite X.
    apply Qle_shift_div_l; [lra|]. nra. }
  assert (Sp : 0 < S) by nra. rewrite <- E in A, B. rewrite Qmult_le_r in A, B by exact Sp. split; assumption.
Qed.

(** ** the coarse grid *)
Lemma base_rows {V} (f : Z -> V) base a b (m0 : Z -> V) : let m := fold_left (fun m i => upd m (base + i) (f i)) (range a b) m0 in
  (forall i, (a <= i < b)%Z -> m (base + i)%Z = f i) /\ forall t, ~ (base + a <= t < base + b)%Z -> m t = m0 t.
Proof.
  cbv zeta. destruct (Z.le_gt_cases a b) as [L|L].
  - match goal with |- context [fold_left ?F ?r ?s] => set (m := fold_left F r s); assert (I : (forall i, (a <= i < b)%Z -> m (base + i)%Z = f i) /\ forall t, ~ (base + a <= t < base + b)%Z -> m t = m0 t) end; [|exact I].
    unfold m. apply (fold_range_inv (fun k m => (forall i, (a <= i < k)%Z -> m (base + i)%Z = f i) /\ forall t, ~ (base + a <= t < base + k)%Z -> m t = m0 t)); [exact L|split; [intros; lia|reflexivity]|].
    intros i s Hi (A & B). split.
    + intros j Hj. destruct (Z.eq_dec j i) as [->|N]; [apply upd_same|]. rewrite upd_other by lia. apply A. lia.
    + intros t Ht. rewrite upd_other by lia. apply B. lia.
  - rewrite range_nil by lia. split; [intros; lia|reflexivity].
Qed.
Lemma smooth_grid_ok f nxout nzout d : (2 <= nxout)%Z -> (2 <= nzout)%Z ->
  let o := smooth_grid f nxout nzout d in
  (forall ix iz, (0 <= ix < nxout)%Z -> (0 <= iz < nzout)%Z -> o (ix * nzout + iz)%Z = f (Z.min ix (nxout - 2)) (Z.min iz (nzout - 2))) /\
  forall t, ~ (0 <= t < nxout * nzout)%Z -> o t = d t.
Proof.
  intros Hx Hz. cbv zeta. unfold smooth_grid. cbv zeta.
  set (col := fun i (d : Z -> Q) => let d := fold_left (fun d iz => upd d (i * nzout + iz)%Z (f i iz)) (range 0 (nzout - 1)) d in upd d (i * nzout + (nzout - 1))%Z (d (i * nzout + (nzout - 1) - 1)%Z)).
  change (fold_left (fun d0 ix => _) (range 0 (nxout - 1)) d) with (fold_left (fun d i => col i d) (range 0 (nxout - 1)) d).
  destruct (columns_fold (fun i j v => v = f i (Z.min j (nzout - 2))) (fun _ => 0%Z) (fun _ => nzout) col nzout 0 (nxout - 1) d) as [A B].
  { intros i Hi. lia. }
  { intros i m Hi. unfold col. cbv zeta. destruct (base_rows (fun iz => f i iz) (i * nzout) 0 (nzout - 1) m) as [P1 P2]. split.
    - intros j Hj. destruct (Z.eq_dec j (nzout - 1)) as [->|N].
      + rewrite upd_same. replace (i * nzout + (nzout - 1) - 1)%Z with (i * nzout + (nzout - 2))%Z by lia. rewrite P1 by lia. f_equal. lia.
      + rewrite upd_other by lia. rewrite P1 by lia. f_equal. lia.
    - intros t Ht. rewrite upd_other by lia. apply P2. lia. }
  set (d1 := fold_left (fun d i => col i d) (range 0 (nxout - 1)) d) in *. clearbody d1.
  set (ix := (nxout - 1)%Z).
  assert (R : let m := fold_left (fun m iz => upd m (ix * nzout + iz)%Z (m ((ix - 1) * nzout + iz)%Z)) (range 0 (nzout - 1)) d1 in
    (forall i, (0 <= i < nzout - 1)%Z -> m (ix * nzout + i)%Z = d1 ((ix - 1) * nzout + i)%Z) /\ forall t, ~ (ix * nzout <= t < ix * nzout + nzout - 1)%Z -> m t = d1 t).
  { cbv zeta. 
    match goal with |- context [fold_left ?F ?r ?s] => set (m := fold_left F r s); assert (I : (forall i, (0 <= i < nzout - 1)%Z -> m (ix * nzout + i)%Z = d1 ((ix - 1) * nzout + i)%Z) /\ forall t, ~ (ix * nzout <= t < ix * nzout + (nzout - 1))%Z -> m t = d1 t) end.
    - unfold m. apply (fold_range_inv (fun k m => (forall i, (0 <= i < k)%Z -> m (ix * nzout + i)%Z = d1 ((ix - 1) * nzout + i)%Z) /\ forall t, ~ (ix * nzout <= t < ix * nzout + k)%Z -> m t = d1 t)); [lia|split; [intros; lia|reflexivity]|].
      intros i s Hi (A' & B'). split.
      + intros j Hj. destruct (Z.eq_dec j i) as [->|N]; [rewrite upd_same; apply B'; nia|]. rewrite upd_other by lia. apply A'. lia.
      + intros t Ht. rewrite upd_other by lia. apply B'. lia.
    - destruct I as [I1 I2]. split; [exact I1|]. intros t Ht. apply I2. lia. }
  cbv zeta in R. set (d2 := fold_left _ _ d1) in *. clearbody d2. destruct R as [R1 R2]. split.
  - intros i j Hi Hj. destruct (Z.eq_dec i ix) as [->|Ni].
    + replace (Z.min ix (nxout - 2)) with (ix - 1)%Z by lia. destruct (Z.eq_dec j (nzout - 1)) as [->|Nj].
      * rewrite upd_same. replace ((ix - 1) * nzout + (nzout - 1) - 1)%Z with ((ix - 1) * nzout + (nzout - 2))%Z by lia. rewrite R2 by nia. rewrite A by lia. f_equal. lia.
      * rewrite upd_other by lia. rewrite R1 by lia. apply A; lia.
    + rewrite upd_other by nia. rewrite R2 by nia. rewrite A by lia. f_equal. lia.
  - intros t Ht. rewrite upd_other by nia. rewrite R2 by nia. apply B. intros i j Hi Hj ->. apply Ht. nia.
Qed.
Lemma store_coarse_ok nxout nzout nz d m : (0 <= nzout <= nz)%Z -> let o := store_coarse nxout nzout nz d m in
  (forall ix iz, (0 <= ix < nxout)%Z -> (0 <= iz < nzout)%Z -> o (ix * nz + iz)%Z = d (ix * nzout + iz)%Z).
Proof.
  intros Hz. cbv zeta. unfold store_coarse.
  destruct (columns_fold (fun i j v => v = d (i * nzout + j)%Z) (fun _ => 0%Z) (fun _ => nzout) (fun ix m => fold_left (fun m iz => upd m (ix * nz + iz)%Z (d (ix * nzout + iz)%Z)) (range 0 nzout) m) nz 0 nxout m) as [A B].
  { intros i Hi. lia. }
  { intros i m' Hi. destruct (base_rows (fun iz => d (i * nzout + iz)%Z) (i * nz) 0 nzout m') as [P1 P2]. split; [intros j Hj; apply P1; lia|intros t Ht; apply P2; lia]. }
  intros ix iz Hx Hi. apply (A ix iz); lia.
Qed.

(** ** reflectivity *)
Definition impedance (ro cp : Z -> Q) (nz ix iz : Z) : Q := ro (ix * nz + iz)%Z * cp (ix * nz + iz)%Z.
Lemma reflectivity_ok nx nz ro cp d : (1 <= nx)%Z -> (1 <= nz)%Z ->
  (forall t, (0 <= t < nx * nz)%Z -> 0 < ro t /\ 0 < cp t) ->
  exists r, reflectivity nx nz ro cp d = Some r /\
    (forall ix iz, (0 <= ix < nx - 1)%Z -> (0 <= iz < nz - 1)%Z ->
       r (ix * nz + iz)%Z * (impedance ro cp nz ix (iz + 1) + impedance ro cp nz ix iz) == impedance ro cp nz ix (iz + 1) - impedance ro cp nz ix iz) /\
    (forall ix iz, (0 <= ix < nx)%Z -> (0 <= iz < nz)%Z -> (ix = nx - 1 \/ iz = nz - 1)%Z -> r (ix * nz + iz)%Z = 0) /\
    (forall t, ~ (0 <= t < nx * nz)%Z -> r t = d t).
Proof.
  intros Hx Hz Hp.
  assert (Ip : forall ix iz, (0 <= ix < nx)%Z -> (0 <= iz < nz)%Z -> 0 < impedance ro cp nz ix iz).
  { intros ix iz H1 H2. unfold impedance. assert (B : (0 <= ix * nz + iz < nx * nz)%Z) by nia. destruct (Hp _ B) as [P1 P2]. nra. }
  unfold reflectivity. cbv zeta.
  match goal with |- context [fold_left ?F (range 0 (nx - 1)) ?s] => set (G := F);
    assert (I : exists r, fold_left G (range 0 (nx - 1)) s = Some r /\
      (forall ix iz, (0 <= ix < nx - 1)%Z -> (0 <= iz < nz - 1)%Z -> r (ix * nz + iz)%Z * (impedance ro cp nz ix (iz + 1) + impedance ro cp nz ix iz) == impedance ro cp nz ix (iz + 1) - impedance ro cp nz ix iz) /\
      (forall ix, (0 <= ix < nx - 1)%Z -> r (ix * nz + (nz - 1))%Z = 0) /\ (forall t, ~ (0 <= t < (nx - 1) * nz)%Z -> r t = d t)) end.
  { apply (fold_range_inv (fun k s => exists r, s = Some r /\
      (forall ix iz, (0 <= ix < k)%Z -> (0 <= iz < nz - 1)%Z -> r (ix * nz + iz)%Z * (impedance ro cp nz ix (iz + 1) + impedance ro cp nz ix iz) == impedance ro cp nz ix (iz + 1) - impedance ro cp nz ix iz) /\
      (forall ix, (0 <= ix < k)%Z -> r (ix * nz + (nz - 1))%Z = 0) /\ (forall t, ~ (0 <= t < k * nz)%Z -> r t = d t))).
    - lia.
    - exists d. split; [reflexivity|]. split; [intros; lia|]. split; [intros; lia|reflexivity].
    - intros i s Hi (r & -> & A & B & C). unfold G at 1. clear G.
      match goal with |- context [fold_left ?F (range 0 (nz - 1)) ?s] =>
        assert (I : exists r', fold_left F (range 0 (nz - 1)) s = Some r' /\
          (forall iz, (0 <= iz < nz - 1)%Z -> r' (i * nz + iz)%Z * (impedance ro cp nz i (iz + 1) + impedance ro cp nz i iz) == impedance ro cp nz i (iz + 1) - impedance ro cp nz i iz) /\
          (forall t, ~ (i * nz <= t < i * nz + (nz - 1))%Z -> r' t = r t)) end.
      { apply (fold_range_inv (fun k s => exists r', s = Some r' /\
          (forall iz, (0 <= iz < k)%Z -> r' (i * nz + iz)%Z * (impedance ro cp nz i (iz + 1) + impedance ro cp nz i iz) == impedance ro cp nz i (iz + 1) - impedance ro cp nz i iz) /\
          (forall t, ~ (i * nz <= t < i * nz + k)%Z -> r' t = r t))).
        - lia.
        - exists r. split; [reflexivity|]. split; [intros; lia|reflexivity].
        - intros j s Hj (r' & -> & A' & B'). change (ro (i * nz + (j + 1))%Z * cp (i * nz + (j + 1))%Z) with (impedance ro cp nz i (j + 1)). change (ro (i * nz + j)%Z * cp (i * nz + j)%Z) with (impedance ro cp nz i j).
          pose proof (Ip i j ltac:(lia) ltac:(lia)) as P1. pose proof (Ip i (j + 1)%Z ltac:(lia) ltac:(lia)) as P2.
          destruct (Qeq_bool _ 0) eqn:Q; [apply Qeq_bool_eq in Q; lra|]. eexists. split; [reflexivity|]. split.
          + intros iz Hz'. destruct (Z.eq_dec iz j) as [->|N]; [rewrite upd_same; field; lra|]. rewrite upd_other by lia. apply A'. lia.
          + intros t Ht. rewrite upd_other by lia. apply B'. lia. }
      destruct I as (r' & -> & A' & B'). eexists. split; [reflexivity|]. split; [|split].
      + intros ix iz Hx' Hz'. destruct (Z.eq_dec ix i) as [->|N].
        * rewrite upd_other by lia. apply A'. exact Hz'.
        * rewrite upd_other by nia. rewrite B' by nia. apply A; lia.
      + intros ix Hx'. destruct (Z.eq_dec ix i) as [->|N].
        * replace (i * nz + (nz - 1))%Z with (i * nz + nz - 1)%Z by lia. apply upd_same.
        * rewrite upd_other by nia. rewrite B' by nia. apply B; lia.
      + intros t Ht. rewrite upd_other by nia. rewrite B' by nia. apply C. nia. }
  destruct I as (r & -> & A & B & C). eexists. split; [reflexivity|].
  destruct (base_rows (fun _ => 0) ((nx - 1) * nz) 0 nz r) as [P1 P2]. split; [|split].
  - intros ix iz H1 H2. rewrite P2 by nia. apply A; assumption.
  - intros ix iz H1 H2 H3. destruct (Z.eq_dec ix (nx - 1)) as [->|N]; [apply P1; lia|]. rewrite P2 by nia. replace iz with (nz - 1)%Z by lia. apply B. lia.
  - intros t Ht. rewrite P2 by nia. apply C. nia.
Qed.
