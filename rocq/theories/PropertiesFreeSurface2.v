(** Properties of the position of the free surface and of the sinking of sources and receivers (C90). *)
From Coq Require Import ZArith Reals List Bool Lia Lra.
From Verif Require Import ListAux FdKernels FdProofs FdOutputProofs Marchenko MarchenkoProofs PropertiesDft FreeSurfaceSpec FreeSurface PropertiesFreeSurface.
Import ListNotations.
Local Open Scope Z_scope.

Section SURFACE.
Variables (n1 n2 : Z) (l2m : Z -> R).
Notation search := (search n1 n2 l2m).
Lemma scan_some f v a k : (forall j, a <= j < a + k -> l2m j = v) -> l2m (a + k) <> v -> 0 <= k < Z.of_nat f -> scan l2m f v a = Some (a + k).
Proof.
  revert a k. induction f as [|f IH]; intros a k A B H; [lia|]. cbn [scan]. destruct (Z.eq_dec k 0) as [->|K].
  - rewrite Z.add_0_r in *. destruct (Req_EM_T (l2m a) v); [contradiction|reflexivity].
  - destruct (Req_EM_T (l2m a) v) as [_|N]; [|exfalso; apply N, A; lia]. rewrite (IH (a + 1) (k - 1)); [f_equal; lia| | |lia].
    + intros j Hj. apply A. lia.
    + replace (a + 1 + (k - 1)) with (a + k) by ring. exact B.
Qed.
Lemma search_some v a c : a <= c < n1 * n2 -> l2m c <> v -> (forall j, a <= j < c -> l2m j = v) -> search v a = Some c.
Proof.
  intros H B A. unfold FreeSurface.search. rewrite (scan_some _ v a (c - a)); [f_equal; lia| | |lia]; [intros j Hj; apply A; lia|]. now replace (a + (c - a)) with c by ring.
Qed.
(** column x of the model, as a function of the row *)
Definition column (x : Z) : Z -> R := fun z => l2m (x * n1 + z).
Lemma search_column v x from iz : 0 <= x < n2 -> 0 <= from -> iz < n1 -> first_other (column x) v from iz -> search v (x * n1 + from) = Some (x * n1 + iz).
Proof.
  intros Hx Hf Hz (F1 & F2 & F3). apply search_some; [nia|exact F2|]. intros j Hj. replace j with (x * n1 + (j - x * n1)) by ring. apply F3. lia.
Qed.

(** C90: a source in column ix from row iz on is placed sinkdepth rows below the first row of the model with a non-zero modulus. *)
Theorem C90_source px pz sinkdepth ix iz row : 0 <= ix + px < n2 -> 0 <= iz + pz -> row < n1 -> first_other (column (ix + px)) 0 (iz + pz) row ->
  sink_source n1 n2 l2m px pz sinkdepth ix iz = Some (row - pz + sinkdepth).
Proof.
  intros Hx H0 H1 F. unfold sink_source. replace ((ix + px) * n1 + iz + pz) with ((ix + px) * n1 + (iz + pz)) by ring. rewrite (search_column 0 _ _ row) by assumption. f_equal. lia.
Qed.
(** A receiver is placed sinkdepth rows below the first row that differs from sinkvel; its depth is increased by sinkdepth cells only. *)
Theorem C90_receiver px pz sinkvel sinkdepth dz ix iz zr row : 0 <= ix + px < n2 -> 0 <= iz + pz -> row < n1 -> first_other (column (ix + px)) sinkvel (iz + pz) row ->
  sink_receiver n1 n2 l2m px pz sinkvel sinkdepth dz ix iz zr = Some (row - pz + sinkdepth, (zr + IZR sinkdepth * dz)%R).
Proof.
  intros Hx H0 H1 F. unfold sink_receiver. replace ((ix + px) * n1 + iz + pz) with ((ix + px) * n1 + (iz + pz)) by ring. rewrite (search_column sinkvel _ _ row) by assumption. cbv zeta.
  replace ((ix + px) * n1 + row - ((ix + px) * n1 + pz)) with (row - pz) by ring. replace (row - pz + sinkdepth - (row - pz)) with sinkdepth by ring. reflexivity.
Qed.
(** So the depth written for a receiver that was on its row is too small by the rows it sank. *)
Theorem C90_receiver_depth_refuted px pz sinkvel sinkdepth dz ix iz row : 0 <= ix + px < n2 -> 0 <= iz + pz -> row < n1 -> first_other (column (ix + px)) sinkvel (iz + pz) row ->
  exists z zr, sink_receiver n1 n2 l2m px pz sinkvel sinkdepth dz ix iz (IZR iz * dz) = Some (z, zr) /\ (IZR z * dz - zr = IZR (row - (iz + pz)) * dz)%R.
Proof.
  intros Hx H0 H1 F. exists (row - pz + sinkdepth), (IZR iz * dz + IZR sinkdepth * dz)%R. split; [now apply C90_receiver|]. rewrite !plus_IZR, !minus_IZR, plus_IZR. ring.
Qed.

(** The position of the surface. *)
Lemma surface_loop px pz (row : Z -> Z) n s : 0 <= px -> 0 <= pz -> px + n <= n2 -> (forall ix, 0 <= ix < n -> row (ix + px) < n1 /\ first_other (column (ix + px)) 0 pz (row (ix + px))) ->
  exists s', fold_left (fun s ix => match s with
      | Some s => match search 0%R ((ix + px) * n1 + pz) with Some a => Some (upd s (ix + px) (a - (ix + px) * n1)) | None => None end
      | None => None end) (range 0 n) (Some s) = Some s' /\ (forall j, s' j = if (px <=? j) && (j <? px + n) then row j else s j).
Proof.
  intros Hx Hz Hn F. assert (G : forall k : nat, Z.of_nat k <= n -> exists s', fold_left (fun s ix => match s with
      | Some s => match search 0%R ((ix + px) * n1 + pz) with Some a => Some (upd s (ix + px) (a - (ix + px) * n1)) | None => None end
      | None => None end) (range 0 (Z.of_nat k)) (Some s) = Some s' /\ (forall j, s' j = if (px <=? j) && (j <? px + Z.of_nat k) then row j else s j)).
  { induction k as [|k IH]; intros Hk.
    - rewrite (range_nil 0 (Z.of_nat 0)) by lia. exists s. split; [reflexivity|]. intros j. destruct (Z.leb_spec px j), (Z.ltb_spec j (px + Z.of_nat 0)); cbn [andb]; try reflexivity; lia.
    - destruct IH as (s' & E & V); [lia|]. replace (Z.of_nat (S k)) with (Z.of_nat k + 1) by lia. rewrite range_snoc by lia. rewrite fold_left_app, E. cbn [fold_left]. destruct (F (Z.of_nat k)) as [F1 F2]; [lia|].
      rewrite (search_column 0 _ _ (row (Z.of_nat k + px))) by (try assumption; lia). eexists. split; [reflexivity|]. intros j. rewrite upd_eq. replace ((Z.of_nat k + px) * n1 + row (Z.of_nat k + px) - (Z.of_nat k + px) * n1) with (row (Z.of_nat k + px)) by ring.
      destruct (Z.eqb_spec j (Z.of_nat k + px)) as [->|N].
      + destruct (Z.leb_spec px (Z.of_nat k + px)), (Z.ltb_spec (Z.of_nat k + px) (px + (Z.of_nat k + 1))); cbn [andb]; try reflexivity; lia.
      + rewrite V. destruct (Z.leb_spec px j), (Z.ltb_spec j (px + Z.of_nat k)), (Z.ltb_spec j (px + (Z.of_nat k + 1))); cbn [andb]; try reflexivity; lia. }
  destruct (Z_le_gt_dec 0 n) as [P|P].
  - destruct (G (Z.to_nat n) ltac:(lia)) as (s' & E & V). rewrite Z2Nat.id in E, V by exact P. eauto.
  - rewrite (range_nil 0 n) by lia. exists s. split; [reflexivity|]. intros j. destruct (Z.leb_spec px j), (Z.ltb_spec j (px + n)); cbn [andb]; try reflexivity; lia.
Qed.
Lemma copy_loop c l : forall s : Z -> Z, (forall j, fold_left (fun s ix => upd s ix (s c)) l s j = if in_dec Z.eq_dec j l then s c else s j).
Proof.
  induction l as [|h l IH]; intros s j; [reflexivity|]. cbn [fold_left]. rewrite IH, !upd_eq. assert (K : (if c =? h then s c else s c) = s c) by (destruct (c =? h); reflexivity). rewrite K.
  destruct (in_dec Z.eq_dec j l), (in_dec Z.eq_dec j (h :: l)) as [I|I]; try reflexivity.
  - exfalso. apply I. now right.
  - destruct (Z.eqb_spec j h); [reflexivity|]. destruct I as [I|I]; [congruence|contradiction].
  - destruct (Z.eqb_spec j h) as [->|]; [exfalso; apply I; now left|reflexivity].
Qed.
(** C90: all positions after the scan.  In the columns of the model it is the first row with a non-zero modulus; in the layer at the left it is that of the first column; in the layer at the right every position is the uninitialised one of the last column of the layer; the other columns are not initialised. *)
Theorem C90_surface g b (row junk : Z -> Z) : let px := first_column g b in let pz := first_row g b in let n := FdKernels.nx g in
  0 <= px -> 0 <= pz -> 1 <= n -> px + n <= n2 -> px + n <= iePx g ->
  (forall ix, px <= ix < px + n -> row ix < n1 /\ first_other (column ix) 0 pz (row ix)) ->
  exists s, scan_surface n1 n2 l2m g b junk = Some s /\
  (forall ix, px <= ix < px + n -> s ix = row ix) /\ (forall ix, 0 <= ix < px -> s ix = row px) /\
  (forall ix, px + n <= ix < iePx g -> s ix = junk (iePx g - 1)) /\ (forall ix, ix < 0 \/ iePx g <= ix -> s ix = junk ix).
Proof.
  intros px pz n Hx Hz Hn Hn2 He F. unfold scan_surface. fold px pz n. destruct (surface_loop px pz row n junk Hx Hz Hn2) as (s' & E & V).
  { intros ix Hi. apply F. lia. }
  cbv zeta. rewrite E. eexists. split; [reflexivity|].
  assert (Val : forall j, (if in_dec Z.eq_dec j (range 0 px) then s' px else s' j) = if (0 <=? j) && (j <? px) then row px else if (px <=? j) && (j <? px + n) then row j else junk j).
  { intros j. destruct (in_dec Z.eq_dec j (range 0 px)) as [I|I].
    - apply in_range in I. rewrite V. destruct (Z.leb_spec 0 j), (Z.ltb_spec j px), (Z.leb_spec px px), (Z.ltb_spec px (px + n)); cbn [andb]; try reflexivity; lia.
    - rewrite V. rewrite in_range in I. destruct (Z.leb_spec 0 j), (Z.ltb_spec j px); cbn [andb]; try reflexivity; lia. }
  conjs; intros ix Hi; rewrite copy_loop, !copy_loop, !Val; destruct (in_dec Z.eq_dec ix (range (px + n) (iePx g))) as [I|I]; rewrite in_range in I; try lia.
  - destruct (Z.leb_spec 0 ix), (Z.ltb_spec ix px), (Z.leb_spec px ix), (Z.ltb_spec ix (px + n)); cbn [andb]; try reflexivity; lia.
  - destruct (Z.leb_spec 0 ix), (Z.ltb_spec ix px), (Z.leb_spec px ix), (Z.ltb_spec ix (px + n)); cbn [andb]; try reflexivity; lia.
  - destruct (Z.leb_spec 0 (iePx g - 1)), (Z.ltb_spec (iePx g - 1) px), (Z.leb_spec px (iePx g - 1)), (Z.ltb_spec (iePx g - 1) (px + n)); cbn [andb]; try reflexivity; lia.
  - destruct (Z.leb_spec 0 ix), (Z.ltb_spec ix px), (Z.leb_spec px ix), (Z.ltb_spec ix (px + n)); cbn [andb]; try reflexivity; lia.
Qed.
End SURFACE.
Print Assumptions C90_source.
Print Assumptions C90_receiver.
Print Assumptions C90_receiver_depth_refuted.
Print Assumptions C90_surface.

(** The first column and row of the model: behind the absorbing layer, where the velocities of the interior start. *)
Theorem C90_origin nx nz iorder b : let g := getgrid nx nz iorder b in
  (lef b <> 2 -> first_column g b = ioZx g) /\ (top b <> 2 -> first_row g b = ioXz g) /\ (lef b = 2 -> first_column g b = ioPx g + npml b) /\ (top b = 2 -> first_row g b = ioPz g + npml b).
Proof.
  unfold first_column, first_row, getgrid, tapered. cbn. split; [|split; [|split]]; intros H; try (rewrite H; cbn; reflexivity); rewrite (proj2 (Z.eqb_neq _ _) H), orb_false_r; [destruct (lef b =? 4)|destruct (top b =? 4)]; lia.
Qed.
Print Assumptions C90_origin.
(** The column after the last one of the normal stresses, whose position the loop over the shear stresses of C89 reads, is never initialised. *)
Theorem C90_last_column_refuted n1 n2 l2m nx nz iorder b (row junk : Z -> Z) : let g := getgrid nx nz iorder b in let px := first_column g b in let pz := first_row g b in
  top b <> 2 -> lef b <> 2 -> 2 <= iorder -> 0 <= npml b -> 1 <= nx -> px + nx <= n2 -> (forall ix, px <= ix < px + nx -> row ix < n1 /\ first_other (column n1 l2m ix) 0 pz (row ix)) ->
  exists s, scan_surface n1 n2 l2m g b junk = Some s /\ ieTx g - 1 = iePx g /\ s (ieTx g - 1) = junk (ieTx g - 1).
Proof.
  intros g px pz T L O N H Hn F. assert (O2 : 1 <= iorder / 2) by (apply Z.div_le_lower_bound; lia).
  destruct (C90_surface n1 n2 l2m g b row junk) as (s & E & _ & _ & _ & K).
  - unfold first_column, g, getgrid. cbn. destruct (lef b =? 4), (lef b =? 2); cbn; lia.
  - unfold first_row, g, getgrid. cbn. destruct (top b =? 4), (top b =? 2); cbn; lia.
  - exact H.
  - exact Hn.
  - unfold first_column, g, getgrid, tapered. cbn. rewrite (proj2 (Z.eqb_neq _ _) L), orb_false_r. destruct (lef b =? 4), (rig b =? 4); cbn; lia.
  - exact F.
  - exists s. split; [exact E|]. assert (Q : ieTx g - 1 = iePx g) by (unfold g, getgrid; cbn; lia). split; [exact Q|]. apply K. right. lia.
Qed.
Print Assumptions C90_last_column_refuted.
(** A column without a non-zero modulus: the search goes on in the next column and the row lies outside the model. *)
Theorem C90_empty_column_refuted n1 n2 l2m px pz sinkdepth ix row : 0 <= ix + px -> ix + px + 1 < n2 -> 0 <= pz < n1 -> 0 <= row < n1 ->
  (forall z, pz <= z < n1 -> l2m ((ix + px) * n1 + z) = 0%R) -> (forall z, 0 <= z < row -> l2m ((ix + px + 1) * n1 + z) = 0%R) -> l2m ((ix + px + 1) * n1 + row) <> 0%R ->
  sink_source n1 n2 l2m px pz sinkdepth ix 0 = Some (n1 + row - pz + sinkdepth).
Proof.
  intros H0 H1 Hp Hr A B C. unfold sink_source. rewrite (search_some n1 n2 l2m 0 _ ((ix + px + 1) * n1 + row)); [f_equal; lia|nia|exact C|].
  intros j Hj. destruct (Z_lt_le_dec j ((ix + px + 1) * n1)).
  - replace j with ((ix + px) * n1 + (j - (ix + px) * n1)) by ring. apply A. lia.
  - replace j with ((ix + px + 1) * n1 + (j - (ix + px + 1) * n1)) by ring. apply B. lia.
Qed.
Print Assumptions C90_empty_column_refuted.

(** ** concrete cases *)
Definition b0 : bnd := mk_bnd 1 4 4 4 3.
Definition g0 : FdKernels.grid := getgrid 5 6 4 b0.
(** the model has zero modulus above row 3 *)
Definition m0 : Z -> R := fun a => if a mod 13 <? 3 then 0%R else 2%R.
Example C90_nonvacuous : let px := first_column g0 b0 in let pz := first_row g0 b0 in
  0 <= px /\ 0 <= pz /\ 1 <= FdKernels.nx g0 /\ px + FdKernels.nx g0 <= 15 /\ px + FdKernels.nx g0 < iePx g0 /\
  (forall ix, px <= ix < px + FdKernels.nx g0 -> 3 < 13 /\ first_other (column 13 m0 ix) 0 pz 3).
Proof.
  cbn. conjs; try lia. intros ix Hi. split; [lia|]. unfold first_other, column, m0. split; [lia|]. split.
  - rewrite Z.add_comm, Z.mod_add by lia. cbn. lra.
  - intros j Hj. rewrite Z.add_comm, Z.mod_add, Z.mod_small by lia. rewrite (proj2 (Z.ltb_lt _ _)) by lia. reflexivity.
Qed.
Example C89_nonvacuous : let b := b0 in let g := g0 in top b = 1 /\ rig b <> 1 /\ bot b <> 1 /\ lef b <> 1 /\ ioPx g < iePx g /\ ioTx g < ieTx g /\
  (forall ix : Z, ioPx g <= ix < iePx g \/ ioTx g <= ix < ieTx g -> 1 <= 3 /\ 3 + 2 < 13).
Proof. cbn. conjs; lia. Qed.
Example C89_sides_nonvacuous : let g := getgrid 5 6 4 (mk_bnd 3 1 3 3 0) in 1 <= iePz g /\ iePz g + 2 < naz g /\ 0 <= ioPz g /\ iePz g <= naz g /\ 0 <= ioTz g /\ ieTz g <= naz g.
Proof. cbn. lia. Qed.
