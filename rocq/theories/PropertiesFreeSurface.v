(** Properties of the free surface: elastic stresses (C89), position of the surface and sinking (C90). *)
From Coq Require Import ZArith Reals List Bool Lia Lra Permutation.
From Verif Require Import ListAux FdKernels FdProofs FdOutputProofs Marchenko MarchenkoProofs PropertiesDft FreeSurfaceSpec FreeSurface.
Import ListNotations.
Local Open Scope Z_scope.

(** ** auxiliary: loops *)
Lemma write_loop (P : Z -> bool) (w : Z -> Z) (v : Z -> R) l m : NoDup l -> (forall i j, In i l -> In j l -> w i = w j -> i = j) ->
  let m' := fold_left (fun m i => if P i then upd m (w i) (v i) else m) l m in
  (forall i, In i l -> m' (w i) = if P i then v i else m (w i)) /\ (forall x, (forall i, In i l -> P i = true -> x <> w i) -> m' x = m x).
Proof.
  cbv zeta. revert m. induction l as [|h l IH]; intros m ND W; cbn [fold_left]; [split; [intros i []|auto]|].
  inversion ND as [|? ? Hh ND']; subst. destruct (IH (if P h then upd m (w h) (v h) else m) ND' ltac:(intros; apply W; auto using in_cons)) as [I1 I2]. split.
  - intros i [<-|Hi].
    + rewrite I2.
      * destruct (P h); [|reflexivity]. rewrite upd_eq, Z.eqb_refl. reflexivity.
      * intros j Hj _ E. apply Hh. rewrite (W h j); [exact Hj|now left|now right|exact E].
    + rewrite I1 by exact Hi. destruct (P i); [reflexivity|]. destruct (P h); [|reflexivity]. rewrite upd_eq. destruct (Z.eqb_spec (w i) (w h)) as [E|]; [|reflexivity]. exfalso. apply Hh. rewrite <- (W i h); [exact Hi|now right|now left|exact E].
  - intros x Hx. rewrite I2 by (intros j Hj Pj; apply Hx; [now right|exact Pj]). destruct (P h) eqn:Ph; [|reflexivity]. rewrite upd_eq. destruct (Z.eqb_spec x (w h)) as [E|]; [|reflexivity]. exfalso. apply (Hx h); [now left|exact Ph|exact E].
Qed.
Lemma mirror_loop (P : Z -> bool) (w1 w2 r1 r2 : Z -> Z) l m : NoDup l ->
  (forall i j, In i l -> In j l -> w1 i = w1 j -> i = j) -> (forall i j, In i l -> In j l -> w2 i = w2 j -> i = j) -> (forall i j, In i l -> In j l -> w1 i <> w2 j) ->
  (forall i j, In i l -> In j l -> r1 i <> w1 j /\ r1 i <> w2 j /\ r2 i <> w1 j /\ r2 i <> w2 j) ->
  let m' := fold_left (fun m i => if P i then let m := upd m (w1 i) (- m (r1 i))%R in upd m (w2 i) (- m (r2 i))%R else m) l m in
  (forall i, In i l -> m' (w1 i) = if P i then (- m (r1 i))%R else m (w1 i)) /\ (forall i, In i l -> m' (w2 i) = if P i then (- m (r2 i))%R else m (w2 i)) /\
  (forall x, (forall i, In i l -> P i = true -> x <> w1 i /\ x <> w2 i) -> m' x = m x).
Proof.
  cbv zeta. revert m. induction l as [|h l IH]; intros m ND W1 W2 W12 Rd; cbn [fold_left]; [repeat split; try (intros i []); auto|].
  inversion ND as [|? ? Hh ND']; subst. set (m1 := if P h then _ else m).
  assert (M1 : forall x, (P h = true -> x <> w1 h /\ x <> w2 h) -> m1 x = m x).
  { intros x Hx. unfold m1. destruct (P h); [|reflexivity]. destruct (Hx eq_refl) as [X1 X2]. rewrite !upd_eq. destruct (Z.eqb_spec x (w2 h)); [contradiction|]. destruct (Z.eqb_spec x (w1 h)); [contradiction|reflexivity]. }
  destruct (IH m1 ND') as (I1 & I2 & I3); try (intros; solve [apply W1; auto using in_cons|apply W2; auto using in_cons|apply W12; auto using in_cons|apply Rd; auto using in_cons]).
  assert (Hr : forall i, In i l -> m1 (r1 i) = m (r1 i) /\ m1 (r2 i) = m (r2 i)). { intros i Hi. destruct (Rd i h (or_intror Hi) (or_introl eq_refl)) as (A & B & C & D). split; apply M1; auto. }
  split; [|split].
  - intros i [<-|Hi].
    + rewrite I3. 2:{ intros j Hj _. split; intros E; [apply Hh; rewrite (W1 h j (or_introl eq_refl) (or_intror Hj) E); exact Hj|exact (W12 h j (or_introl eq_refl) (or_intror Hj) E)]. }
      unfold m1. destruct (P h); [|reflexivity]. rewrite upd_eq. destruct (Z.eqb_spec (w1 h) (w2 h)) as [E|_]; [exfalso; exact (W12 h h (or_introl eq_refl) (or_introl eq_refl) E)|]. rewrite upd_eq, Z.eqb_refl. reflexivity.
    + rewrite I1 by exact Hi. destruct (P i); [now rewrite (proj1 (Hr i Hi))|]. apply M1. intros _. split; intros E; [apply Hh; rewrite <- (W1 i h (or_intror Hi) (or_introl eq_refl) E); exact Hi|exact (W12 i h (or_intror Hi) (or_introl eq_refl) E)].
  - intros i [<-|Hi].
    + rewrite I3. 2:{ intros j Hj _. split; intros E; [exact (W12 j h (or_intror Hj) (or_introl eq_refl) (eq_sym E))|apply Hh; rewrite (W2 h j (or_introl eq_refl) (or_intror Hj) E); exact Hj]. }
      unfold m1. destruct (P h); [|reflexivity]. rewrite upd_eq, Z.eqb_refl. rewrite upd_eq. destruct (Z.eqb_spec (r2 h) (w1 h)) as [E|_]; [|reflexivity]. exfalso. destruct (Rd h h (or_introl eq_refl) (or_introl eq_refl)) as (_ & _ & Q & _). exact (Q E).
    + rewrite I2 by exact Hi. destruct (P i); [now rewrite (proj2 (Hr i Hi))|]. apply M1. intros _. split; intros E; [exact (W12 h i (or_introl eq_refl) (or_intror Hi) (eq_sym E))|apply Hh; rewrite <- (W2 i h (or_intror Hi) (or_introl eq_refl) E); exact Hi].
  - intros x Hx. rewrite I3 by (intros j Hj Pj; apply Hx; [now right|exact Pj]). apply M1. intros Ph. apply Hx; [now left|exact Ph].
Qed.
Lemma cell_inj n1 ix iz jx jz : 0 <= iz < n1 -> 0 <= jz < n1 -> ix * n1 + iz = jx * n1 + jz -> ix = jx /\ iz = jz.
Proof. intros H1 H2 E. assert (ix = jx) by nia. subst. lia. Qed.

(** ** C89 *)
(** The stress along a free boundary follows from the strain rate along it and from the normal stress being zero. *)
Theorem C89_condition l2m lam exx ezz : l2m <> 0%R -> snd (normal_stress l2m lam exx ezz) = 0%R -> fst (normal_stress l2m lam exx ezz) = ((l2m - lam * lam / l2m) * exx)%R.
Proof.
  unfold normal_stress. cbn [fst snd]. intros H E. assert (Z : ezz = (- (lam * exx) / l2m)%R). { apply (Rmult_eq_reg_l l2m); [|exact H]. replace (l2m * (- (lam * exx) / l2m))%R with (- (lam * exx))%R by (field; exact H). lra. }
  rewrite Z. field. exact H.
Qed.
Print Assumptions C89_condition.
Section STRESS.
Variables (n1 : Z) (g : FdKernels.grid) (l2m lam vx vz : Z -> R) (surface : Z -> Z).
(** the column is as high as the one before it; the first column of the loop is compared with the first column of the pressure grid *)
Definition level (first ix : Z) : bool := (if ix =? first then surface (ioPx g) else surface (ix - 1)) =? surface ix.
Lemma columns_range body a b m : columns g surface body (range a b) m = fold_left (fun m ix => if level a ix then body m ix else m) (range a b) m.
Proof.
  destruct (Z.le_gt_cases b a) as [L|L]; [unfold columns; rewrite range_nil by lia; reflexivity|].
  replace b with (a + Z.of_nat (Z.to_nat (b - a))) by lia. generalize (Z.to_nat (b - a)). intros k. unfold columns.
  enough (K : fold_left (fun '(m, izp) ix => let iz := surface ix in (if izp =? iz then body m ix else m, iz)) (range a (a + Z.of_nat k)) (m, surface (ioPx g)) =
    (fold_left (fun m ix => if level a ix then body m ix else m) (range a (a + Z.of_nat k)) m, if (k =? 0)%nat then surface (ioPx g) else surface (a + Z.of_nat k - 1))) by (exact (f_equal fst K)).
  induction k as [|k IH]; [rewrite range_nil by lia; reflexivity|]. replace (a + Z.of_nat (S k)) with (a + Z.of_nat k + 1) by lia. rewrite range_snoc by lia. rewrite !fold_left_app, IH. cbn [fold_left Nat.eqb]. f_equal; [|f_equal; lia].
  unfold level. destruct k as [|k]; [cbn [Nat.eqb]; replace (a + Z.of_nat 0) with a by lia; rewrite Z.eqb_refl; reflexivity|]. cbn [Nat.eqb]. destruct (Z.eqb_spec (a + Z.of_nat (S k)) a); [lia|]. reflexivity.
Qed.
(** Top: in every column as high as its left neighbour the normal stress at the surface is zero, the shear stress is odd around the surface, and the stress
    along the surface is minus the modulus of C89_condition times the strain rate along it (where the modulus is not zero); nothing else changes. *)
Theorem C89_top b s : top b = 1 -> rig b <> 1 -> bot b <> 1 -> lef b <> 1 ->
  (forall ix, ioPx g <= ix < iePx g \/ ioTx g <= ix < ieTx g -> 1 <= surface ix /\ surface ix + 2 < n1) ->
  let r := free_surfaces n1 g l2m lam vx vz surface b s in
  (forall ix iz, ioPx g <= ix < iePx g -> 0 <= iz < n1 -> tzz r (ix * n1 + iz) = if (iz =? surface ix) && level (ioPx g) ix then 0%R else tzz s (ix * n1 + iz)) /\
  (forall ix iz, ioTx g <= ix < ieTx g -> 0 <= iz < n1 -> txz r (ix * n1 + iz) =
     if negb (level (ioTx g) ix) then txz s (ix * n1 + iz) else if iz =? surface ix then (- txz s (ix * n1 + (surface ix + 1))%Z)%R else if iz =? surface ix - 1 then (- txz s (ix * n1 + (surface ix + 2))%Z)%R else txz s (ix * n1 + iz)) /\
  (forall ix iz, ioPx g <= ix < iePx g -> 0 <= iz < n1 -> txx r (ix * n1 + iz) =
     if (iz =? surface ix) && level (ioPx g) ix then
       if Req_EM_T (l2m (ix * n1 + iz)) 0 then txx s (ix * n1 + iz)
       else (- ((l2m (ix * n1 + iz)%Z - lam (ix * n1 + iz)%Z * lam (ix * n1 + iz)%Z / l2m (ix * n1 + iz)%Z) * difference4 (vx ((ix - 1) * n1 + iz)%Z) (vx (ix * n1 + iz)%Z) (vx ((ix + 1) * n1 + iz)%Z) (vx ((ix + 2) * n1 + iz)%Z)))%R
     else txx s (ix * n1 + iz)) /\
  (forall ix iz, ~ ioPx g <= ix < iePx g -> 0 <= iz < n1 -> tzz r (ix * n1 + iz) = tzz s (ix * n1 + iz) /\ txx r (ix * n1 + iz) = txx s (ix * n1 + iz)) /\
  (forall ix iz, ~ ioTx g <= ix < ieTx g -> 0 <= iz < n1 -> txz r (ix * n1 + iz) = txz s (ix * n1 + iz)).
Proof.
  intros T Ri Bo Le Hs. unfold free_surfaces. cbv zeta. rewrite (proj2 (Z.eqb_eq _ _) T), (proj2 (Z.eqb_neq _ _) Ri), (proj2 (Z.eqb_neq _ _) Bo), (proj2 (Z.eqb_neq _ _) Le). unfold free_top. cbn [txx tzz txz]. rewrite !columns_range.
  unfold clear_tzz, mirror_txz, along_txx.
  destruct (write_loop (level (ioPx g)) (fun ix => ix * n1 + surface ix) (fun _ => 0%R) (range (ioPx g) (iePx g)) (tzz s) (range_NoDup _ _)) as [Z1 Z2].
  { intros i j Hi Hj E. apply in_range in Hi, Hj. apply (cell_inj n1 i (surface i) j (surface j)); try exact E; [pose proof (Hs i (or_introl Hi))|pose proof (Hs j (or_introl Hj))]; lia. }
  destruct (mirror_loop (level (ioTx g)) (fun ix => ix * n1 + surface ix) (fun ix => ix * n1 + surface ix - 1) (fun ix => ix * n1 + surface ix + 1) (fun ix => ix * n1 + surface ix + 2) (range (ioTx g) (ieTx g)) (txz s) (range_NoDup _ _)) as (X1 & X2 & X3).
  { intros i j Hi Hj E. apply in_range in Hi, Hj. pose proof (Hs i (or_intror Hi)). pose proof (Hs j (or_intror Hj)). apply (cell_inj n1 i (surface i) j (surface j)); lia. }
  { intros i j Hi Hj E. apply in_range in Hi, Hj. pose proof (Hs i (or_intror Hi)). pose proof (Hs j (or_intror Hj)). apply (cell_inj n1 i (surface i) j (surface j)); lia. }
  { intros i j Hi Hj E. apply in_range in Hi, Hj. pose proof (Hs i (or_intror Hi)). pose proof (Hs j (or_intror Hj)). destruct (cell_inj n1 i (surface i) j (surface j - 1)); try lia. subst; lia. }
  { intros i j Hi Hj. apply in_range in Hi, Hj. pose proof (Hs i (or_intror Hi)). pose proof (Hs j (or_intror Hj)). repeat split; intros E.
    - destruct (cell_inj n1 i (surface i + 1) j (surface j)); try lia. subst; lia.
    - destruct (cell_inj n1 i (surface i + 1) j (surface j - 1)); try lia. subst; lia.
    - destruct (cell_inj n1 i (surface i + 2) j (surface j)); try lia. subst; lia.
    - destruct (cell_inj n1 i (surface i + 2) j (surface j - 1)); try lia. subst; lia. }
  set (P := fun ix => level (ioPx g) ix && (if Req_EM_T (l2m (ix * n1 + surface ix)%Z) 0 then false else true)).
  rewrite (PropertiesDft.fold_left_ext (fun (m : Z -> R) ix => if level (ioPx g) ix then if Req_EM_T (l2m (ix * n1 + surface ix)) 0 then m else upd m (ix * n1 + surface ix) (- dvx n1 vx ix (surface ix) * modulus l2m lam (ix * n1 + surface ix))%R else m)
    (fun m ix => if P ix then upd m (ix * n1 + surface ix) (- dvx n1 vx ix (surface ix) * modulus l2m lam (ix * n1 + surface ix))%R else m)) by (intros m i _; unfold P; destruct (level (ioPx g) i), (Req_EM_T (l2m (i * n1 + surface i)%Z) 0); reflexivity).
  destruct (write_loop P (fun ix => ix * n1 + surface ix) (fun ix => - dvx n1 vx ix (surface ix) * modulus l2m lam (ix * n1 + surface ix))%R (range (ioPx g) (iePx g)) (txx s) (range_NoDup _ _)) as [A1 A2].
  { intros i j Hi Hj E. apply in_range in Hi, Hj. apply (cell_inj n1 i (surface i) j (surface j)); try exact E; [pose proof (Hs i (or_introl Hi))|pose proof (Hs j (or_introl Hj))]; lia. }
  repeat split.
  - intros ix iz Hx Hz. pose proof (Hs ix (or_introl Hx)). destruct (Z.eqb_spec iz (surface ix)) as [->|N]; cbn [andb]; [apply Z1, in_range, Hx|]. apply Z2. intros j Hj _ E. apply in_range in Hj. pose proof (Hs j (or_introl Hj)). destruct (cell_inj n1 ix iz j (surface j)); try lia. subst. lia.
  - intros ix iz Hx Hz. pose proof (Hs ix (or_intror Hx)) as Hsx. destruct (level (ioTx g) ix) eqn:Lv; cbn [negb].
    + destruct (Z.eqb_spec iz (surface ix)) as [->|N]; [|destruct (Z.eqb_spec iz (surface ix - 1)) as [->|N']].
      * etransitivity; [apply (X1 ix); now apply in_range|]. rewrite Lv. f_equal. f_equal. ring.
      * replace (ix * n1 + (surface ix - 1)) with (ix * n1 + surface ix - 1) by ring. etransitivity; [apply (X2 ix); now apply in_range|]. rewrite Lv. f_equal. f_equal. ring.
      * apply X3. intros j Hj _. apply in_range in Hj. pose proof (Hs j (or_intror Hj)). split; intros E; [destruct (cell_inj n1 ix iz j (surface j))|destruct (cell_inj n1 ix iz j (surface j - 1))]; try lia; subst; lia.
    + apply X3. intros j Hj Pj. apply in_range in Hj. pose proof (Hs j (or_intror Hj)). assert (j <> ix) by (intros ->; congruence). split; intros E; [destruct (cell_inj n1 ix iz j (surface j))|destruct (cell_inj n1 ix iz j (surface j - 1))]; try lia.
  - intros ix iz Hx Hz. pose proof (Hs ix (or_introl Hx)). destruct (Z.eqb_spec iz (surface ix)) as [->|N]; cbn [andb].
    + etransitivity; [apply A1; now apply in_range|]. unfold P. destruct (level (ioPx g) ix), (Req_EM_T (l2m (ix * n1 + surface ix)%Z) 0); cbn [andb]; try reflexivity. unfold dvx, modulus, c1, c2, difference4. lra.
    + apply A2. intros j Hj _ E. apply in_range in Hj. pose proof (Hs j (or_introl Hj)). destruct (cell_inj n1 ix iz j (surface j)); try lia. subst. lia.
  - apply Z2. intros j Hj _ E. apply in_range in Hj. pose proof (Hs j (or_introl Hj)). destruct (cell_inj n1 ix iz j (surface j)); try lia.
  - apply A2. intros j Hj _ E. apply in_range in Hj. pose proof (Hs j (or_introl Hj)). destruct (cell_inj n1 ix iz j (surface j)); try lia.
  - intros ix iz Hx Hz. apply X3. intros j Hj _. apply in_range in Hj. pose proof (Hs j (or_intror Hj)). split; intros E; [destruct (cell_inj n1 ix iz j (surface j))|destruct (cell_inj n1 ix iz j (surface j - 1))]; try lia.
Qed.

(** The other sides: normal stress zero on the boundary, shear stress odd around the line half a cell from it, stress along the boundary from the strain rate along it. *)
Lemma true_loop {A} (f : A -> Z -> A) l a : fold_left f l a = fold_left (fun a i => if (fun _ => true) i then f a i else a) l a. Proof. reflexivity. Qed.
Definition stress_along (a : Z) (d : R) : R := (- ((l2m a - lam a * lam a / l2m a) * d))%R.
Theorem C89_right b s : top b <> 1 -> rig b = 1 -> bot b <> 1 -> lef b <> 1 -> 0 <= ioPz g -> iePz g <= n1 -> 0 <= ioTz g -> ieTz g <= n1 ->
  let r := free_surfaces n1 g l2m lam vx vz surface b s in let ix := iePx g in
  (forall iz, ioPz g <= iz < iePz g -> txx r (ix * n1 + iz) = 0%R /\
     tzz r (ix * n1 + iz) = if Req_EM_T (l2m (ix * n1 + iz)) 0 then tzz s (ix * n1 + iz) else stress_along (ix * n1 + iz) (difference4 (vz (ix * n1 + (iz - 1))) (vz (ix * n1 + iz)) (vz (ix * n1 + (iz + 1))) (vz (ix * n1 + (iz + 2))))) /\
  (forall iz, ioTz g <= iz < ieTz g -> txz r ((ix + 1) * n1 + iz) = (- txz s (ix * n1 + iz)%Z)%R /\ txz r ((ix + 2) * n1 + iz) = (- txz s ((ix - 1) * n1 + iz)%Z)%R) /\
  (forall jx jz, 0 <= jz < n1 -> ~ (jx = ix /\ ioPz g <= jz < iePz g) -> txx r (jx * n1 + jz) = txx s (jx * n1 + jz) /\ tzz r (jx * n1 + jz) = tzz s (jx * n1 + jz)) /\
  (forall jx jz, 0 <= jz < n1 -> ~ (ix + 1 <= jx <= ix + 2 /\ ioTz g <= jz < ieTz g) -> txz r (jx * n1 + jz) = txz s (jx * n1 + jz)).
Proof.
  intros T Ri Bo Le P0 P1 T0 T1. unfold free_surfaces. cbv zeta. rewrite (proj2 (Z.eqb_neq _ _) T), (proj2 (Z.eqb_eq _ _) Ri), (proj2 (Z.eqb_neq _ _) Bo), (proj2 (Z.eqb_neq _ _) Le). unfold free_right. cbn [txx tzz txz]. set (ix := iePx g).
  destruct (write_loop (fun _ => true) (fun iz => ix * n1 + iz) (fun _ => 0%R) (range (ioPz g) (iePz g)) (txx s) (range_NoDup _ _)) as [X1 X2]; [intros i j _ _ E; lia|]. cbv beta iota in X1, X2.
  set (P := fun iz => if Req_EM_T (l2m (ix * n1 + iz)%Z) 0 then false else true).
  destruct (write_loop P (fun iz => ix * n1 + iz) (fun iz => - dvz n1 vz ix iz * modulus l2m lam (ix * n1 + iz))%R (range (ioPz g) (iePz g)) (tzz s) (range_NoDup _ _)) as [Z1 Z2]; [intros i j _ _ E; lia|].
  rewrite (PropertiesDft.fold_left_ext (fun (m : Z -> R) iz => if Req_EM_T (l2m (ix * n1 + iz)) 0 then m else upd m (ix * n1 + iz) (- dvz n1 vz ix iz * modulus l2m lam (ix * n1 + iz))%R)
    (fun m iz => if P iz then upd m (ix * n1 + iz) (- dvz n1 vz ix iz * modulus l2m lam (ix * n1 + iz))%R else m)) by (intros m i _; unfold P; destruct (Req_EM_T (l2m (ix * n1 + i)%Z) 0); reflexivity).
  destruct (mirror_loop (fun _ => true) (fun iz => (ix + 1) * n1 + iz) (fun iz => (ix + 2) * n1 + iz) (fun iz => ix * n1 + iz) (fun iz => (ix - 1) * n1 + iz) (range (ioTz g) (ieTz g)) (txz s) (range_NoDup _ _)) as (S1 & S2 & S3); try (intros i j _ _ E; lia).
  { intros i j Hi Hj E. apply in_range in Hi, Hj. apply cell_inj in E; lia. }
  { intros i j Hi Hj. apply in_range in Hi, Hj. repeat split; intros E; apply cell_inj in E; lia. }
  cbv beta iota in S1, S2, S3. repeat split.
  - apply X1. now apply in_range.
  - etransitivity; [apply Z1; now apply in_range|]. unfold P. destruct (Req_EM_T (l2m (ix * n1 + iz)%Z) 0); [reflexivity|]. unfold stress_along, dvz, modulus, c1, c2, difference4.
    replace (ix * n1 + (iz - 1)) with (ix * n1 + iz - 1) by ring. replace (ix * n1 + (iz + 1)) with (ix * n1 + iz + 1) by ring. replace (ix * n1 + (iz + 2)) with (ix * n1 + iz + 2) by ring. lra.
  - apply S1. now apply in_range.
  - apply S2. now apply in_range.
  - apply X2. intros i Hi _ E. apply in_range in Hi. apply cell_inj in E; lia.
  - apply Z2. intros i Hi _ E. apply in_range in Hi. apply cell_inj in E; lia.
  - intros jx jz Hj Hn. apply S3. intros i Hi _. apply in_range in Hi. split; intros E; apply cell_inj in E; lia.
Qed.
Theorem C89_left b s : top b <> 1 -> rig b <> 1 -> bot b <> 1 -> lef b = 1 -> 0 <= ioPz g -> iePz g <= n1 -> 0 <= ioTz g -> ieTz g <= n1 ->
  let r := free_surfaces n1 g l2m lam vx vz surface b s in let ix := ioPx g in
  (forall iz, ioPz g <= iz < iePz g -> txx r (ix * n1 + iz) = 0%R /\
     tzz r (ix * n1 + iz) = if Req_EM_T (l2m (ix * n1 + iz)) 0 then tzz s (ix * n1 + iz) else stress_along (ix * n1 + iz) (difference4 (vz (ix * n1 + (iz - 1))) (vz (ix * n1 + iz)) (vz (ix * n1 + (iz + 1))) (vz (ix * n1 + (iz + 2))))) /\
  (forall iz, ioTz g <= iz < ieTz g -> txz r (ix * n1 + iz) = (- txz s ((ix + 1) * n1 + iz)%Z)%R /\ txz r ((ix - 1) * n1 + iz) = (- txz s ((ix + 2) * n1 + iz)%Z)%R) /\
  (forall jx jz, 0 <= jz < n1 -> ~ (jx = ix /\ ioPz g <= jz < iePz g) -> txx r (jx * n1 + jz) = txx s (jx * n1 + jz) /\ tzz r (jx * n1 + jz) = tzz s (jx * n1 + jz)) /\
  (forall jx jz, 0 <= jz < n1 -> ~ (ix - 1 <= jx <= ix /\ ioTz g <= jz < ieTz g) -> txz r (jx * n1 + jz) = txz s (jx * n1 + jz)).
Proof.
  intros T Ri Bo Le P0 P1 T0 T1. unfold free_surfaces. cbv zeta. rewrite (proj2 (Z.eqb_neq _ _) T), (proj2 (Z.eqb_neq _ _) Ri), (proj2 (Z.eqb_neq _ _) Bo), (proj2 (Z.eqb_eq _ _) Le). unfold free_left. cbn [txx tzz txz]. set (ix := ioPx g).
  destruct (write_loop (fun _ => true) (fun iz => ix * n1 + iz) (fun _ => 0%R) (range (ioPz g) (iePz g)) (txx s) (range_NoDup _ _)) as [X1 X2]; [intros i j _ _ E; lia|]. cbv beta iota in X1, X2.
  set (P := fun iz => if Req_EM_T (l2m (ix * n1 + iz)%Z) 0 then false else true).
  destruct (write_loop P (fun iz => ix * n1 + iz) (fun iz => - dvz n1 vz ix iz * modulus l2m lam (ix * n1 + iz))%R (range (ioPz g) (iePz g)) (tzz s) (range_NoDup _ _)) as [Z1 Z2]; [intros i j _ _ E; lia|].
  rewrite (PropertiesDft.fold_left_ext (fun (m : Z -> R) iz => if Req_EM_T (l2m (ix * n1 + iz)) 0 then m else upd m (ix * n1 + iz) (- dvz n1 vz ix iz * modulus l2m lam (ix * n1 + iz))%R)
    (fun m iz => if P iz then upd m (ix * n1 + iz) (- dvz n1 vz ix iz * modulus l2m lam (ix * n1 + iz))%R else m)) by (intros m i _; unfold P; destruct (Req_EM_T (l2m (ix * n1 + i)%Z) 0); reflexivity).
  destruct (mirror_loop (fun _ => true) (fun iz => ix * n1 + iz) (fun iz => (ix - 1) * n1 + iz) (fun iz => (ix + 1) * n1 + iz) (fun iz => (ix + 2) * n1 + iz) (range (ioTz g) (ieTz g)) (txz s) (range_NoDup _ _)) as (S1 & S2 & S3); try (intros i j _ _ E; lia).
  { intros i j Hi Hj E. apply in_range in Hi, Hj. apply cell_inj in E; lia. }
  { intros i j Hi Hj. apply in_range in Hi, Hj. repeat split; intros E; apply cell_inj in E; lia. }
  cbv beta iota in S1, S2, S3. repeat split.
  - apply X1. now apply in_range.
  - etransitivity; [apply Z1; now apply in_range|]. unfold P. destruct (Req_EM_T (l2m (ix * n1 + iz)%Z) 0); [reflexivity|]. unfold stress_along, dvz, modulus, c1, c2, difference4.
    replace (ix * n1 + (iz - 1)) with (ix * n1 + iz - 1) by ring. replace (ix * n1 + (iz + 1)) with (ix * n1 + iz + 1) by ring. replace (ix * n1 + (iz + 2)) with (ix * n1 + iz + 2) by ring. lra.
  - apply S1. now apply in_range.
  - apply S2. now apply in_range.
  - apply X2. intros i Hi _ E. apply in_range in Hi. apply cell_inj in E; lia.
  - apply Z2. intros i Hi _ E. apply in_range in Hi. apply cell_inj in E; lia.
  - intros jx jz Hj Hn. apply S3. intros i Hi _. apply in_range in Hi. split; intros E; apply cell_inj in E; lia.
Qed.
Theorem C89_bottom b s : top b <> 1 -> rig b <> 1 -> bot b = 1 -> lef b <> 1 -> 1 <= iePz g -> iePz g + 2 < n1 ->
  let r := free_surfaces n1 g l2m lam vx vz surface b s in let iz := iePz g in
  (forall ix, ioPx g <= ix < iePx g -> tzz r (ix * n1 + iz) = 0%R /\
     txx r (ix * n1 + iz) = if Req_EM_T (l2m (ix * n1 + iz)) 0 then txx s (ix * n1 + iz) else stress_along (ix * n1 + iz) (difference4 (vx ((ix - 1) * n1 + iz)) (vx (ix * n1 + iz)) (vx ((ix + 1) * n1 + iz)) (vx ((ix + 2) * n1 + iz)))) /\
  (forall ix, ioTx g <= ix < ieTx g -> txz r (ix * n1 + (iz + 1)) = (- txz s (ix * n1 + iz)%Z)%R /\ txz r (ix * n1 + (iz + 2)) = (- txz s (ix * n1 + (iz - 1))%Z)%R) /\
  (forall jx jz, 0 <= jz < n1 -> ~ (jz = iz /\ ioPx g <= jx < iePx g) -> txx r (jx * n1 + jz) = txx s (jx * n1 + jz) /\ tzz r (jx * n1 + jz) = tzz s (jx * n1 + jz)) /\
  (forall jx jz, 0 <= jz < n1 -> ~ (iz + 1 <= jz <= iz + 2 /\ ioTx g <= jx < ieTx g) -> txz r (jx * n1 + jz) = txz s (jx * n1 + jz)).
Proof.
  intros T Ri Bo Le P0 P1. unfold free_surfaces. cbv zeta. rewrite (proj2 (Z.eqb_neq _ _) T), (proj2 (Z.eqb_neq _ _) Ri), (proj2 (Z.eqb_eq _ _) Bo), (proj2 (Z.eqb_neq _ _) Le). unfold free_bottom. cbn [txx tzz txz]. set (iz := iePz g) in *.
  assert (CI : forall i j, i * n1 + iz = j * n1 + iz -> i = j) by (intros i j E; apply cell_inj in E; lia).
  destruct (write_loop (fun _ => true) (fun ix => ix * n1 + iz) (fun _ => 0%R) (range (ioPx g) (iePx g)) (tzz s) (range_NoDup _ _)) as [X1 X2]; [intros i j _ _ E; now apply CI|]. cbv beta iota in X1, X2.
  set (P := fun ix => if Req_EM_T (l2m (ix * n1 + iz)%Z) 0 then false else true).
  destruct (write_loop P (fun ix => ix * n1 + iz) (fun ix => - dvx n1 vx ix iz * modulus l2m lam (ix * n1 + iz))%R (range (ioPx g) (iePx g)) (txx s) (range_NoDup _ _)) as [Z1 Z2]; [intros i j _ _ E; now apply CI|].
  rewrite (PropertiesDft.fold_left_ext (fun (m : Z -> R) ix => if Req_EM_T (l2m (ix * n1 + iz)) 0 then m else upd m (ix * n1 + iz) (- dvx n1 vx ix iz * modulus l2m lam (ix * n1 + iz))%R)
    (fun m ix => if P ix then upd m (ix * n1 + iz) (- dvx n1 vx ix iz * modulus l2m lam (ix * n1 + iz))%R else m)) by (intros m i _; unfold P; destruct (Req_EM_T (l2m (i * n1 + iz)%Z) 0); reflexivity).
  destruct (mirror_loop (fun _ => true) (fun ix => ix * n1 + iz + 1) (fun ix => ix * n1 + iz + 2) (fun ix => ix * n1 + iz) (fun ix => ix * n1 + iz - 1) (range (ioTx g) (ieTx g)) (txz s) (range_NoDup _ _)) as (S1 & S2 & S3).
  { intros i j _ _ E. apply CI. lia. }
  { intros i j _ _ E. apply CI. lia. }
  { intros i j _ _ E. destruct (cell_inj n1 i (iz + 1) j (iz + 2)); lia. }
  { intros i j _ _. repeat split; intros E; [destruct (cell_inj n1 i iz j (iz + 1))|destruct (cell_inj n1 i iz j (iz + 2))|destruct (cell_inj n1 i (iz - 1) j (iz + 1))|destruct (cell_inj n1 i (iz - 1) j (iz + 2))]; lia. }
  cbv beta iota in S1, S2, S3. repeat split.
  - apply X1. now apply in_range.
  - etransitivity; [apply Z1; now apply in_range|]. unfold P. destruct (Req_EM_T (l2m (ix * n1 + iz)%Z) 0); [reflexivity|]. unfold stress_along, dvx, modulus, c1, c2, difference4. lra.
  - replace (ix * n1 + (iz + 1)) with (ix * n1 + iz + 1) by ring. apply S1. now apply in_range.
  - replace (ix * n1 + (iz + 2)) with (ix * n1 + iz + 2) by ring. replace (ix * n1 + (iz - 1)) with (ix * n1 + iz - 1) by ring. apply S2. now apply in_range.
  - apply Z2. intros i Hi _ E. apply in_range in Hi. apply cell_inj in E; lia.
  - apply X2. intros i Hi _ E. apply in_range in Hi. apply cell_inj in E; lia.
  - intros jx jz Hj Hn. apply S3. intros i Hi _. apply in_range in Hi. split; intros E; [destruct (cell_inj n1 jx jz i (iz + 1))|destruct (cell_inj n1 jx jz i (iz + 2))]; lia.
Qed.
(** The stress along the boundary is overwritten, not accumulated: without motion the stress that was there is lost. *)
Theorem C89_history_lost_refuted b s ix : top b = 1 -> rig b <> 1 -> bot b <> 1 -> lef b <> 1 ->
  (forall ix, ioPx g <= ix < iePx g \/ ioTx g <= ix < ieTx g -> 1 <= surface ix /\ surface ix + 2 < n1) ->
  (forall a, vx a = 0%R) -> ioPx g <= ix < iePx g -> level (ioPx g) ix = true -> l2m (ix * n1 + surface ix) <> 0%R ->
  txx (free_surfaces n1 g l2m lam vx vz surface b s) (ix * n1 + surface ix) = 0%R.
Proof.
  intros T Ri Bo Le Hs V Hx Lv Hl. destruct (C89_top b s T Ri Bo Le Hs) as (_ & _ & X & _). cbv zeta in X. rewrite X by (try assumption; pose proof (Hs ix (or_introl Hx)); lia).
  rewrite Z.eqb_refl, Lv. cbn [andb]. destruct (Req_EM_T (l2m (ix * n1 + surface ix)) 0); [contradiction|]. unfold difference4. rewrite !V. ring.
Qed.
(** On a flat surface every order of the columns gives the same stresses. *)
Theorem C89_flat_any_order order a c m f : (forall ix, surface ix = c) -> 1 <= c -> c + 2 < n1 -> Permutation order (range a f) ->
  (forall x, columns g surface (clear_tzz n1 surface) order m x = columns g surface (clear_tzz n1 surface) (range a f) m x) /\
  (forall x, columns g surface (mirror_txz n1 surface) order m x = columns g surface (mirror_txz n1 surface) (range a f) m x) /\
  (forall x, columns g surface (along_txx n1 l2m lam vx surface) order m x = columns g surface (along_txx n1 l2m lam vx surface) (range a f) m x).
Proof.
  intros F C1 C2 Pm.
  assert (K : forall body l, columns g surface body l m = fold_left body l m).
  { intros body l. unfold columns. rewrite F. generalize m. induction l as [|h l IH]; intros m0; [reflexivity|]. cbn [fold_left]. cbv zeta. rewrite F, Z.eqb_refl. apply IH. }
  rewrite !K. clear K.
  assert (ND : NoDup order) by (apply (Permutation_NoDup (Permutation_sym Pm)), range_NoDup).
  assert (I : forall i, In i order <-> In i (range a f)) by (intros i; split; apply Permutation_in; [exact Pm|exact (Permutation_sym Pm)]).
  assert (Same : forall (P : Z -> bool) (w : Z -> Z) (v : Z -> R), (forall i j, w i = w j -> i = j) -> forall x, fold_left (fun m i => if P i then upd m (w i) (v i) else m) order m x = fold_left (fun m i => if P i then upd m (w i) (v i) else m) (range a f) m x).
  { intros P w v W x. destruct (write_loop P w v order m ND ltac:(intros i j _ _; apply W)) as [A1 A2]. destruct (write_loop P w v (range a f) m (range_NoDup _ _) ltac:(intros i j _ _; apply W)) as [B1 B2].
    destruct (in_dec Z.eq_dec x (map w order)) as [H|H].
    - apply in_map_iff in H. destruct H as (i & <- & Hi). rewrite A1 by exact Hi. rewrite B1 by (now apply I). reflexivity.
    - rewrite A2, B2; [reflexivity| |]; intros i Hi _ ->; apply H, in_map; [now apply I|exact Hi]. }
  assert (W : forall i j, i * n1 + surface i = j * n1 + surface j -> i = j) by (intros i j E; rewrite !F in E; apply cell_inj in E; lia).
  split; [|split]; intros x.
  - apply (Same (fun _ => true) (fun ix => ix * n1 + surface ix) (fun _ => 0%R) W).
  - unfold mirror_txz. 
    assert (D : forall i j, i * n1 + surface i <> j * n1 + surface j - 1). { intros i j E. rewrite !F in E. destruct (cell_inj n1 i c j (c - 1)); lia. }
    assert (Rd : forall i j, i * n1 + surface i + 1 <> j * n1 + surface j /\ i * n1 + surface i + 1 <> j * n1 + surface j - 1 /\ i * n1 + surface i + 2 <> j * n1 + surface j /\ i * n1 + surface i + 2 <> j * n1 + surface j - 1).
    { intros i j. rewrite !F. repeat split; intros E; [destruct (cell_inj n1 i (c + 1) j c)|destruct (cell_inj n1 i (c + 1) j (c - 1))|destruct (cell_inj n1 i (c + 2) j c)|destruct (cell_inj n1 i (c + 2) j (c - 1))]; lia. }
    destruct (mirror_loop (fun _ => true) (fun ix => ix * n1 + surface ix) (fun ix => ix * n1 + surface ix - 1) (fun ix => ix * n1 + surface ix + 1) (fun ix => ix * n1 + surface ix + 2) order m ND) as (A1 & A2 & A3); try (intros i j _ _; auto; fail); [intros i j _ _ E; apply W; lia|].
    destruct (mirror_loop (fun _ => true) (fun ix => ix * n1 + surface ix) (fun ix => ix * n1 + surface ix - 1) (fun ix => ix * n1 + surface ix + 1) (fun ix => ix * n1 + surface ix + 2) (range a f) m (range_NoDup _ _)) as (B1 & B2 & B3); try (intros i j _ _; auto; fail); [intros i j _ _ E; apply W; lia|].
    cbv beta iota zeta in *. destruct (in_dec Z.eq_dec x (map (fun ix => ix * n1 + surface ix) order)) as [H|H].
    + apply in_map_iff in H. destruct H as (i & <- & Hi). rewrite A1 by exact Hi. rewrite B1 by (now apply I). reflexivity.
    + destruct (in_dec Z.eq_dec x (map (fun ix => ix * n1 + surface ix - 1) order)) as [H'|H'].
      * apply in_map_iff in H'. destruct H' as (i & <- & Hi). rewrite A2 by exact Hi. rewrite B2 by (now apply I). reflexivity.
      * assert (N : forall i, In i order -> x <> i * n1 + surface i /\ x <> i * n1 + surface i - 1).
        { intros i Hi. split; intros ->; [apply H|apply H']; apply in_map_iff; exists i; (split; [reflexivity|exact Hi]). }
        rewrite A3 by (intros i Hi _; apply N; exact Hi). rewrite B3 by (intros i Hi _; apply N, I; exact Hi). reflexivity.
  - unfold along_txx. cbv zeta. 
    assert (E : forall l, fold_left (fun (t : Z -> R) ix => if Req_EM_T (l2m (ix * n1 + surface ix)) 0 then t else upd t (ix * n1 + surface ix) (- dvx n1 vx ix (surface ix) * modulus l2m lam (ix * n1 + surface ix))%R) l m =
      fold_left (fun t ix => if (fun ix => if Req_EM_T (l2m (ix * n1 + surface ix)) 0 then false else true) ix then upd t (ix * n1 + surface ix) (- dvx n1 vx ix (surface ix) * modulus l2m lam (ix * n1 + surface ix))%R else t) l m).
    { intros l. apply PropertiesDft.fold_left_ext. intros t i _. destruct (Req_EM_T (l2m (i * n1 + surface i)) 0); reflexivity. }
    rewrite !E. apply (Same (fun ix => if Req_EM_T (l2m (ix * n1 + surface ix)) 0 then false else true) (fun ix => ix * n1 + surface ix) (fun ix => - dvx n1 vx ix (surface ix) * modulus l2m lam (ix * n1 + surface ix))%R W).
Qed.
(** Sides of another kind change nothing, and several free sides act one after the other. *)
Theorem C89_sides b s : free_surfaces n1 g l2m lam vx vz surface b s =
  let only (t r bo l : bool) := mk_bnd (if t then top b else 0) (if bo then bot b else 0) (if l then lef b else 0) (if r then rig b else 0) (npml b) in
  let f c s := free_surfaces n1 g l2m lam vx vz surface c s in
  f (only false false false true) (f (only false false true false) (f (only false true false false) (f (only true false false false) s))).
Proof. unfold free_surfaces. cbn. reflexivity. Qed.
Theorem C89_no_free_side b s : top b <> 1 -> rig b <> 1 -> bot b <> 1 -> lef b <> 1 -> free_surfaces n1 g l2m lam vx vz surface b s = s.
Proof. intros T Ri Bo Le. unfold free_surfaces. rewrite (proj2 (Z.eqb_neq _ _) T), (proj2 (Z.eqb_neq _ _) Ri), (proj2 (Z.eqb_neq _ _) Bo), (proj2 (Z.eqb_neq _ _) Le). reflexivity. Qed.
End STRESS.
Print Assumptions C89_sides.
Print Assumptions C89_no_free_side.
Print Assumptions C89_top.
Print Assumptions C89_right.
Print Assumptions C89_left.
Print Assumptions C89_bottom.
Print Assumptions C89_history_lost_refuted.
Print Assumptions C89_flat_any_order.
(** On a surface with a step the shared variable izp makes the result depend on the order: two threads, the second half first. *)
Theorem C89_step_order_refuted : exists n1 g surface order m x, Permutation order (range (ioPx g) (iePx g)) /\ (forall ix, 1 <= surface ix /\ surface ix + 2 < n1) /\
  columns g surface (clear_tzz n1 surface) order m x <> columns g surface (clear_tzz n1 surface) (range (ioPx g) (iePx g)) m x.
Proof.
  exists 12, (getgrid 4 4 4 (mk_bnd 1 3 3 3 0)), (fun ix => if ix <? 3 then 3 else 5), [3; 4; 1; 2], (fun _ => 1%R), (1 * 12 + 3). split; [|split].
  - change (range (ioPx (getgrid 4 4 4 (mk_bnd 1 3 3 3 0))) (iePx (getgrid 4 4 4 (mk_bnd 1 3 3 3 0)))) with [1; 2; 3; 4]. change [3; 4; 1; 2] with ([3; 4] ++ [1; 2]). apply (Permutation_app_comm [3; 4] [1; 2]).
  - intros ix. destruct (ix <? 3); lia.
  - change (range (ioPx (getgrid 4 4 4 (mk_bnd 1 3 3 3 0))) (iePx (getgrid 4 4 4 (mk_bnd 1 3 3 3 0)))) with [1; 2; 3; 4]. unfold columns, clear_tzz, upd. cbn. intros E. lra.
Qed.
Print Assumptions C89_step_order_refuted.
