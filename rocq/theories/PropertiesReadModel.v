(** Properties of fdelmodc: the medium parameters (C74, C75). *)
From Coq Require Import ZArith Reals List Lia Lra Bool.
From Verif Require Import ListAux FdKernels FdProofs FdOutputProofs Marchenko MarchenkoProofs MakemodProofs PropertiesFftLayout ReadModel ReadModelSpec ReadModelProofs.
Import ListNotations.
Local Open Scope Z_scope.

Lemma pad_nonneg b : 0 <= npml b -> forall side, 0 <= pad b side.
Proof. intros H side. unfold pad. destruct (absorbing side); lia. Qed.
Lemma near_in n a : 1 <= n -> 0 <= nearest n a < n. Proof. unfold nearest. lia. Qed.
Lemma near_id n a : 0 <= a < n -> nearest n a = a. Proof. unfold nearest. lia. Qed.
Lemma near_last n : 1 <= n -> nearest n (n - 1 + 1) = n - 1. Proof. unfold nearest. lia. Qed.
Lemma mean_same x : mean x x = x. Proof. unfold mean. field. Qed.
Lemma mul4_harmonic a a1 a2 a3 : (0 <= a)%R -> mul4 a a1 a2 a3 = harmonic a a1 a2 a3.
Proof.
  intros Ha. unfold mul4, harmonic. destruct (Rlt_dec 0 a) as [P|P].
  - destruct (Req_EM_T a1 0) as [->|N1]; [destruct (Req_EM_T (a * 0 * a2 * a3) 0) as [_|N]; [reflexivity|exfalso; apply N; ring]|].
    destruct (Req_EM_T a2 0) as [->|N2]; [destruct (Req_EM_T (a * a1 * 0 * a3) 0) as [_|N]; [reflexivity|exfalso; apply N; ring]|].
    destruct (Req_EM_T a3 0) as [->|N3]; [destruct (Req_EM_T (a * a1 * a2 * 0) 0) as [_|N]; [reflexivity|exfalso; apply N; ring]|].
    destruct (Req_EM_T (a * a1 * a2 * a3) 0) as [E|_].
    + exfalso. apply Rmult_integral in E. destruct E as [E|E]; [|contradiction]. apply Rmult_integral in E. destruct E as [E|E]; [|contradiction]. apply Rmult_integral in E. destruct E; [lra|contradiction].
    + unfold Rdiv. rewrite !Rmult_1_l. reflexivity.
  - assert (a = 0%R) by lra. subst a. destruct (Req_EM_T (0 * a1 * a2 * a3) 0) as [_|N]; [reflexivity|exfalso; apply N; ring].
Qed.
Lemma harmonic_same x : (0 <= x)%R -> harmonic x x x x = x.
Proof. intros H. unfold harmonic. destruct (Req_EM_T (x * x * x * x) 0) as [E|N]; [|field; intros ->; apply N; ring]. apply Rmult_integral in E. destruct E as [E|E]; [|congruence]. apply Rmult_integral in E. destruct E as [E|E]; [|congruence]. apply Rmult_integral in E. destruct E; congruence. Qed.
Lemma on_inner (c : bool) f m x (v : R) : f m x = m x -> m x = v -> on c f m x = v.
Proof. destruct c; cbn; congruence. Qed.
(** fac is dt/dx, which is not zero *)
Section MODEL.
Variables (nx nz iorder : Z) (b : bnd) (fac : R) (cp cs ro : Z -> R).
Definition sizes : Prop := 1 <= nx /\ 1 <= nz /\ (2 <= iorder /\ Z.even iorder = true) /\ 0 <= npml b /\ fac <> 0%R.
(** positions in the model extended with the absorbing sides *)
Definition position (a c : Z) : Prop := - pad b (lef b) <= a < nx + pad b (rig b) /\ - pad b (top b) <= c < nz + pad b (bot b).
Let g := layout nx nz iorder b.
Let CP (ix iz : Z) : R := cp (ix * nz + iz).
Let CS (ix iz : Z) : R := cs (ix * nz + iz).
Let RO (ix iz : Z) : R := ro (ix * nz + iz).
Let px := startPx nx nz iorder b.
Let pz := startPz nx nz iorder b.
Let tx := startTx nx nz iorder b.
Let tz := startTz nx nz iorder b.
Definition pml_side : bool := (lef b =? 2) || (rig b =? 2) || (top b =? 2) || (bot b =? 2).

Lemma half : iorder = 2 * (iorder / 2) \/ Z.even iorder = false.
Proof. destruct (Z.even iorder) eqn:E; [left|now right]. apply Z.even_spec in E. destruct E as [k ->]. rewrite (Z.mul_comm 2 k), Z.div_mul by lia. ring. Qed.
Ltac dims H := let Hx := fresh "Hx" in let Hz := fresh "Hz" in let Ho := fresh "Ho" in let He := fresh "He" in let Hn := fresh "Hn" in let Hf := fresh "Hf" in
  destruct H as (Hx & Hz & (Ho & He) & Hn & Hf); pose proof half as Hh; destruct Hh as [Hh|Hh]; [|congruence]; pose proof (pad_nonneg b Hn (lef b)) as Pl; pose proof (pad_nonneg b Hn (rig b)) as Pr; pose proof (pad_nonneg b Hn (top b)) as Pt; pose proof (pad_nonneg b Hn (bot b)) as Pu.
Lemma density_ok : zero_density nx nz ro = false -> forall i j, 0 <= i < nx -> 0 <= j < nz -> RO i j <> 0%R.
Proof.
  intros H i j Hi Hj E. unfold zero_density in H. assert (T : existsb (fun i => if Req_EM_T (ro i) 0 then true else false) (range 0 (nz * nx)) = true); [|congruence].
  apply existsb_exists. exists (i * nz + j). split; [apply in_range; nia|]. destruct (Req_EM_T (ro (i * nz + j)) 0); [reflexivity|contradiction].
Qed.
Lemma start_p : px = ioPx g + pad b (lef b) /\ pz = ioPz g + pad b (top b) /\ tx = ioTx g + pad b (lef b) /\ tz = ioTz g + pad b (top b).
Proof. unfold px, pz, tx, tz, startPx, startPz, startTx, startTz, pad. fold g. conjs; reflexivity. Qed.

(** values written by the first loops *)
Lemma at_x i j m : sizes -> 0 <= i < nx -> 0 <= j < nz -> fill_rox nx nz iorder b fac ro m ((ioXx g + i) * naz g + (ioXz g + j)) = (fac * / mean (RO i j) (RO (nearest nx (i + 1)) j))%R.
Proof.
  intros H Hi Hj. dims H. unfold fill_rox. fold g.
  rewrite (fill_ok _ _ _ _ _ _ _ _ _ (fun i j => fac * / mean (RO i j) (RO (nearest nx (i + 1)) j))%R); try (unfold g; cbn [layout naz ioXz]; lia).
  - replace (ioXx g + i - ioXx g) with i by ring. replace (ioXz g + j - ioXz g) with j by ring. replace (inside 0 nx 0 nz i j) with true by (unfold inside; lia). reflexivity.
  - clear i j Hi Hj. intros i j Hi Hj. unfold bx_mean, b_here. destruct (Z.eqb_spec i (nx - 1)) as [->|N].
    + rewrite near_last, mean_same by lia. now destruct (j =? nz - 1).
    + rewrite near_id by lia. assert (E : forall x y, (fac / (1 / 2 * (x + y)) = fac * / mean x y)%R) by (intros; unfold Rdiv, mean; f_equal; f_equal; field). rewrite E. now destruct (j =? nz - 1).
Qed.
Lemma at_z i j m : sizes -> 0 <= i < nx -> 0 <= j < nz -> fill_roz nx nz iorder b fac ro m ((ioZx g + i) * naz g + (ioZz g + j)) = (fac * / mean (RO i j) (RO i (nearest nz (j + 1))))%R.
Proof.
  intros H Hi Hj. dims H. unfold fill_roz. fold g.
  rewrite (fill_ok _ _ _ _ _ _ _ _ _ (fun i j => fac * / mean (RO i j) (RO i (nearest nz (j + 1))))%R); try (unfold g; cbn [layout naz ioZz]; lia).
  - replace (ioZx g + i - ioZx g) with i by ring. replace (ioZz g + j - ioZz g) with j by ring. replace (inside 0 nx 0 nz i j) with true by (unfold inside; lia). reflexivity.
  - clear i j Hi Hj. intros i j Hi Hj. unfold bz_mean, b_here. destruct (Z.eqb_spec j (nz - 1)) as [->|N].
    + rewrite near_last, mean_same by lia. now destruct (i =? nx - 1).
    + rewrite near_id by lia. assert (E : forall x y, (fac / (1 / 2 * (x + y)) = fac * / mean x y)%R) by (intros; unfold Rdiv, mean; f_equal; f_equal; field). rewrite E. unfold RO. rewrite Z.add_assoc. now destruct (i =? nx - 1).
Qed.
Lemma at_l2m i j m : sizes -> 0 <= i < nx -> 0 <= j < nz -> fill_l2m nx nz iorder b fac cp ro m ((px + i) * naz g + (pz + j)) = (fac * modulus CP RO i j)%R.
Proof.
  intros H Hi Hj. pose proof start_p as (Ex & Ez & _). dims H. unfold fill_l2m. fold g px pz. cbv zeta.
  rewrite (fill_ok _ _ _ _ _ _ _ _ _ (fun i j => fac * modulus CP RO i j)%R); try (rewrite Ez; unfold g; cbn [layout naz ioPz]; lia).
  - replace (px + i - px) with i by ring. replace (pz + j - pz) with j by ring. replace (inside 0 nx 0 nz i j) with true by (unfold inside; lia). reflexivity.
  - assumption.
  - assumption.
  - clear i j Hi Hj. intros i j Hi Hj. assert (E : (fac * modulus CP RO i j = fac * lamda2mu nz cp ro i j)%R) by (unfold modulus, lamda2mu, CP, RO; ring). rewrite E. now destruct (i =? nx - 1), (j =? nz - 1).
Qed.
Lemma at_lam i j m : sizes -> 0 <= i < nx -> 0 <= j < nz -> fill_lam nx nz iorder b fac cp cs ro m ((px + i) * naz g + (pz + j)) = (fac * lame CP CS RO i j)%R.
Proof.
  intros H Hi Hj. pose proof start_p as (Ex & Ez & _). dims H. unfold fill_lam. fold g px pz. cbv zeta.
  rewrite (fill_ok _ _ _ _ _ _ _ _ _ (fun i j => fac * lame CP CS RO i j)%R); try (rewrite Ez; unfold g; cbn [layout naz ioPz]; lia).
  - replace (px + i - px) with i by ring. replace (pz + j - pz) with j by ring. replace (inside 0 nx 0 nz i j) with true by (unfold inside; lia). reflexivity.
  - assumption.
  - assumption.
  - clear i j Hi Hj. intros i j Hi Hj. assert (E : (fac * lame CP CS RO i j = fac * lamda nz cp cs ro i j)%R) by (unfold lame, lamda, mu_here, modulus, rigidity, lamda2mu, CP, CS, RO; ring). rewrite E. now destruct (i =? nx - 1), (j =? nz - 1).
Qed.
(** densities are not negative *)
Lemma at_muu i j m : sizes -> (forall i j, 0 <= i < nx -> 0 <= j < nz -> (0 <= RO i j)%R) -> 0 <= i < nx -> 0 <= j < nz ->
  fill_muu nx nz iorder b fac cs ro m ((tx + i) * naz g + (tz + j)) = (fac * corner_rigidity' nx nz CS RO i j)%R.
Proof.
  intros H Hr Hi Hj. pose proof start_p as (_ & _ & Ex & Ez). dims H. unfold fill_muu. fold g tx tz.
  rewrite (fill_ok _ _ _ _ _ _ _ _ _ (fun i j => fac * corner_rigidity' nx nz CS RO i j)%R); try (rewrite Ez; unfold g; cbn [layout naz ioTz]; lia).
  - replace (tx + i - tx) with i by ring. replace (tz + j - tz) with j by ring. replace (inside 0 nx 0 nz i j) with true by (unfold inside; lia). reflexivity.
  - assumption.
  - assumption.
  - clear i j Hi Hj. intros i j Hi Hj. assert (P : forall x, (0 <= RO i j * (CS x j * CS x j))%R). { intros x. apply Rmult_le_pos; [apply Hr; lia|]. apply Rle_0_sqr. }
    assert (Q : (cs (i * nz + j)%Z * cs (i * nz + j)%Z * ro (i * nz + j)%Z = RO i j * (CS i j * CS i j))%R) by (unfold CS, RO; ring).
    unfold corner_rigidity'. cbv zeta. destruct (Z.eqb_spec i (nx - 1)) as [Ei|Ni], (Z.eqb_spec j (nz - 1)) as [Ej|Nj].
    + rewrite Ei, Ej. rewrite !near_last by lia. rewrite <- Ei, <- Ej. rewrite harmonic_same by apply P. unfold mu_here. now rewrite Q.
    + rewrite Ei. rewrite near_last by lia. rewrite <- Ei. rewrite near_id by lia. unfold mul_right. cbv zeta. rewrite mul4_harmonic by (rewrite Q; apply P). f_equal. unfold CS, RO. f_equal; rewrite ?Z.add_assoc; ring.
    + rewrite Ej. rewrite near_last by lia. rewrite <- Ej. rewrite near_id by lia. unfold mul_bottom. cbv zeta. rewrite mul4_harmonic by (rewrite Q; apply P). f_equal. unfold CS, RO. f_equal; rewrite ?Z.add_assoc; ring.
    + rewrite !near_id by lia. unfold mul_inner. cbv zeta. rewrite mul4_harmonic by (rewrite Q; apply P). f_equal. unfold CS, RO. f_equal; rewrite ?Z.add_assoc; ring.
Qed.
Lemma modulus_zero i j : sizes -> zero_density nx nz ro = false -> 0 <= i < nx -> 0 <= j < nz -> forall v : R,
  (if Req_EM_T (fac * modulus CP RO i j) 0 then 0%R else fac * v)%R = (fac * (if Req_EM_T (CP i j) 0 then 0 else v))%R.
Proof.
  intros H Hd Hi Hj v. destruct H as (_ & _ & _ & _ & Hf). pose proof (density_ok Hd i j Hi Hj) as Nr. unfold modulus. destruct (Req_EM_T (CP i j) 0) as [E|N].
  - rewrite E. destruct (Req_EM_T (fac * (RO i j * (0 * 0))) 0) as [_|N]; [ring|exfalso; apply N; ring].
  - destruct (Req_EM_T (fac * (RO i j * (CP i j * CP i j))) 0) as [E|_]; [|reflexivity]. exfalso. apply Rmult_integral in E. destruct E as [E|E]; [contradiction|]. apply Rmult_integral in E. destruct E as [E|E]; [contradiction|]. apply Rmult_integral in E. destruct E; contradiction.
Qed.

(** the last steps: values of the extended arrays *)
Lemma layout_ok : sizes -> pad b (top b) <= ioXz g /\ ioXz g + nz + pad b (bot b) <= naz g /\ pad b (top b) <= ioZz g /\ ioZz g + nz + pad b (bot b) <= naz g /\
  pad b (top b) <= pz /\ pz + nz + pad b (bot b) <= naz g /\ pad b (top b) <= tz /\ tz + nz + pad b (bot b) <= naz g /\
  ieXx g = ioXx g + nx /\ ieXz g = ioXz g + nz /\ ieZx g = ioZx g + nx /\ ieZz g = ioZz g + nz /\
  ioPx g = px - pad b (lef b) /\ iePx g = px + nx + pad b (rig b) /\ ioPz g = pz - pad b (top b) /\ iePz g = pz + nz + pad b (bot b) /\
  ioTx g = tx - pad b (lef b) /\ ieTx g = tx + nx + pad b (rig b) /\ ioTz g = tz - pad b (top b) /\ ieTz g = tz + nz + pad b (bot b) /\
  pz = ioXz g /\ pz <= tz /\ ioXx g = ioZx g + 1 /\ ioZz g = ioXz g + 1 /\ 0 <= ioZx g - pad b (lef b) /\ 0 <= px - pad b (lef b) /\ 0 <= tx - pad b (lef b) /\
  ioXx g + nx + pad b (rig b) <= nax g /\ px + nx + pad b (rig b) <= nax g /\ tx + nx + pad b (rig b) <= nax g.
Proof. intros H. pose proof start_p as (E1 & E2 & E3 & E4). dims H. rewrite E1, E2, E3, E4. unfold g. cbn [layout naz nax ioXx ioXz ieXx ieXz ioZx ioZz ieZx ieZz ioPx ioPz iePx iePz ioTx ioTz ieTx ieTz]. conjs; lia. Qed.
Lemma at_extended xo zo m m' a c : sizes -> pad b (top b) <= zo -> zo + nz + pad b (bot b) <= naz g -> extended (naz g) xo zo nx nz (pad b (lef b)) (pad b (rig b)) (pad b (top b)) (pad b (bot b)) m m' -> position a c ->
  m' ((xo + a) * naz g + (zo + c)) = m ((xo + nearest nx a) * naz g + (zo + nearest nz c)).
Proof.
  intros H H1 H2 E [Ha Hc]. rewrite E by lia. replace (xo + a - xo) with a by ring. replace (zo + c - zo) with c by ring. replace (inside (- pad b (lef b)) (nx + pad b (rig b)) (- pad b (top b)) (nz + pad b (bot b)) a c) with true by (unfold inside; lia). reflexivity.
Qed.
End MODEL.

Lemma Some_eq {A} (x y : A) : Some x = Some y -> x = y. Proof. congruence. Qed.

(** ** C74 *)
(** Every position of the model with its absorbing sides has the parameters of the nearest cell: the buoyancy of the
    mean of two densities at the velocity nodes, the moduli of the cell at the stress nodes. *)
Theorem C74_parameters nx nz iorder b fac cp cs ro elastic m r : sizes nx nz iorder b fac -> readModel nx nz iorder b fac cp cs ro elastic m = Some r ->
  let g := layout nx nz iorder b in
  let CP := fun ix iz => cp (ix * nz + iz) in let CS := fun ix iz => cs (ix * nz + iz) in let RO := fun ix iz => ro (ix * nz + iz) in
  let px := ioPx g + pad b (lef b) in let pz := ioPz g + pad b (top b) in
  let tx := ioTx g + pad b (lef b) in let tz := ioTz g + pad b (top b) in
  forall a c, position nx nz b a c -> let i := nearest nx a in let j := nearest nz c in
  m_rox r ((ioXx g + a) * naz g + (ioXz g + c)) = (fac * buoyancy_x nx CP RO i j)%R /\
  (elastic && pml_side b = false -> m_roz r ((ioZx g + a) * naz g + (ioZz g + c)) = (fac * buoyancy_z nz CP RO i j)%R) /\
  m_l2m r ((px + a) * naz g + (pz + c)) = (fac * modulus CP RO i j)%R /\
  (elastic = true -> m_lam r ((px + a) * naz g + (pz + c)) = (fac * lame CP CS RO i j)%R) /\
  (elastic = true -> (forall i j, 0 <= i < nx -> 0 <= j < nz -> (0 <= RO i j)%R) ->
    m_muu r ((tx + a) * naz g + (tz + c)) = (fac * corner_rigidity' nx nz CS RO i j)%R).
Proof.
  intros H Hr g CP CS RO px pz tx tz a c Hp i j. pose proof (layout_ok nx nz iorder b fac cp cs ro H) as La. cbv zeta in La.
  unfold readModel in Hr. destruct (zero_density nx nz ro) eqn:Hd; [discriminate|]. cbv zeta in Hr. apply Some_eq in Hr. rewrite <- Hr. clear Hr. cbn [m_rox m_roz m_l2m m_lam m_muu].
  fold g in La |- *. change (startPx nx nz iorder b) with px in *. change (startPz nx nz iorder b) with pz in *. change (startTx nx nz iorder b) with tx in *. change (startTz nx nz iorder b) with tz in *.
  destruct La as (L1 & L2 & L3 & L4 & L5 & L6 & L7 & L8 & L9 & L10 & L11 & L12 & L13 & L14 & L15 & L16 & L17 & L18 & L19 & L20 & L21 & L22 & L23 & L24 & L25 & L26 & L27 & L28 & L29 & L30).
  assert (Hx : 1 <= nx) by apply H. assert (Hz : 1 <= nz) by apply H. assert (Hn : 0 <= npml b) by apply H.
  assert (Hi : 0 <= i < nx) by (apply near_in; lia). assert (Hj : 0 <= j < nz) by (apply near_in; lia).
  assert (Pt : 0 <= pad b (top b)) by (apply pad_nonneg; exact Hn). assert (Pu : 0 <= pad b (bot b)) by (apply pad_nonneg; exact Hn).
  assert (In : forall xo zo i j, 0 <= i < nx -> 0 <= j < nz -> inside 0 nx 0 nz (xo + i - xo) (zo + j - zo) = true) by (intros; unfold inside; lia).
  rewrite L9, L10, L11, L12, L14, L16, L18, L20, L13, L15, L17, L19.
  (* l2m before the extension *)
  assert (M : forall i j, 0 <= i < nx -> 0 <= j < nz -> on elastic (pml_p nx nz iorder b) (fill_l2m nx nz iorder b fac cp ro (m_l2m m)) ((px + i) * naz g + (pz + j)) = (fac * modulus CP RO i j)%R).
  { intros i' j' Hi' Hj'. apply on_inner.
    - apply (pml_ok nx nz iorder b px pz); fold g; change (startPz nx nz iorder b) with pz; try lia. apply In; lia.
    - apply (at_l2m nx nz iorder b fac cp cs ro); assumption. }
  assert (CL : forall xo zo f v i j, 0 <= i < nx -> 0 <= j < nz -> 0 <= zo -> zo + nz <= naz g -> f ((xo + i) * naz g + (zo + j)) = (fac * v)%R ->
    clear (naz g) nx nz (on elastic (pml_p nx nz iorder b) (fill_l2m nx nz iorder b fac cp ro (m_l2m m))) px pz xo zo f ((xo + i) * naz g + (zo + j)) = (fac * (if Req_EM_T (CP i j) 0 then 0 else v))%R).
  { intros xo zo f v i' j' Hi' Hj' H1 H2 Ef. rewrite clear_ok by lia. rewrite In by lia. replace (xo + i' - xo + px) with (px + i') by ring. replace (zo + j' - zo + pz) with (pz + j') by ring. rewrite M by assumption. rewrite Ef. apply (modulus_zero nx nz iorder b fac cp cs ro i' j' H Hd Hi' Hj'). }
  conjs.
  - rewrite (at_extended nx nz iorder b fac cp cs ro (ioXx g) (ioXz g) _ _ a c H L1 L2 (extend_v_ok nx nz iorder b Hx Hz Hn (ioXx g) (ioXz g) _ L1 L2) Hp). fold i j g. rewrite (CL (ioXx g) (ioXz g) _ (/ mean (RO i j) (RO (nearest nx (i + 1)%Z) j))%R i j Hi Hj); [reflexivity|lia|lia|].
    apply on_inner; [|apply (at_x nx nz iorder b fac cp cs ro); assumption]. apply (pml_ok nx nz iorder b (ioXx g) (ioXz g)); fold g; change (startPz nx nz iorder b) with pz; try lia. apply In; lia.
  - intros Np. rewrite (at_extended nx nz iorder b fac cp cs ro (ioZx g) (ioZz g) _ _ a c H L3 L4 (extend_v_ok nx nz iorder b Hx Hz Hn (ioZx g) (ioZz g) _ L3 L4) Hp). fold i j g. rewrite (CL (ioZx g) (ioZz g) _ (/ mean (RO i j) (RO i (nearest nz (j + 1)%Z)))%R i j Hi Hj); [reflexivity|lia|lia|].
    replace (on elastic (pml_v nx nz iorder b) (fill_roz nx nz iorder b fac ro (m_roz m))) with (fill_roz nx nz iorder b fac ro (m_roz m)); [apply (at_z nx nz iorder b fac cp cs ro); assumption|].
    destruct elastic; [|reflexivity]. cbn [on andb] in *. unfold pml_side in Np. unfold pml_v. symmetry. apply pml_none; lia.
  - rewrite (at_extended nx nz iorder b fac cp cs ro px pz _ _ a c H L5 L6 (extend_p_ok nx nz iorder b Hx Hz Hn px pz _ L5 L6) Hp). fold i j g. apply M; assumption.
  - intros ->. cbn [on]. rewrite (at_extended nx nz iorder b fac cp cs ro px pz _ _ a c H L5 L6 (extend_p_ok nx nz iorder b Hx Hz Hn px pz _ L5 L6) Hp). fold i j g.
    transitivity (fill_lam nx nz iorder b fac cp cs ro (m_lam m) ((px + i) * naz g + (pz + j))); [|apply (at_lam nx nz iorder b fac cp cs ro); assumption].
    apply (pml_ok nx nz iorder b px pz); fold g; change (startPz nx nz iorder b) with pz; try lia. apply In; lia.
  - intros -> Hpos. cbn [on]. rewrite (at_extended nx nz iorder b fac cp cs ro tx tz _ _ a c H L7 L8 (extend_p_ok nx nz iorder b Hx Hz Hn tx tz _ L7 L8) Hp). fold i j g.
    transitivity (fill_muu nx nz iorder b fac cs ro (m_muu m) ((tx + i) * naz g + (tz + j))); [|apply (at_muu nx nz iorder b fac cp cs ro); assumption].
    apply (pml_ok nx nz iorder b tx tz); fold g; change (startPz nx nz iorder b) with pz; try lia. apply In; lia.
Qed.
Print Assumptions C74_parameters.
(** The program stops exactly when some density is zero. *)
Theorem C74_zero_density nx nz iorder b fac cp cs ro elastic m : 0 <= nz -> 0 <= nx ->
  (readModel nx nz iorder b fac cp cs ro elastic m = None <-> exists i j, 0 <= i < nx /\ 0 <= j < nz /\ ro (i * nz + j) = 0%R).
Proof.
  intros Hz Hx. unfold readModel. destruct (zero_density nx nz ro) eqn:E.
  - split; [intros _|reflexivity]. apply existsb_exists in E. destruct E as (k & Hk & E). apply in_range in Hk. destruct (Req_EM_T (ro k) 0) as [Z|]; [|discriminate].
    assert (0 < nz) by nia. exists (k / nz), (k mod nz). split; [split; [apply Z.div_pos; lia|apply Z.div_lt_upper_bound; lia]|]. split; [apply Z.mod_pos_bound; lia|]. rewrite Z.mul_comm, <- Z.div_mod by lia. exact Z.
  - split; [discriminate|]. intros (i & j & Hi & Hj & Z). exfalso. exact (density_ok nx nz iorder b cp cs ro E i j Hi Hj Z).
Qed.
Print Assumptions C74_zero_density.

(** Nothing is written outside the arrays of nax * naz cells. *)
Theorem C74_in_bounds nx nz iorder b fac cp cs ro elastic m r x : sizes nx nz iorder b fac -> readModel nx nz iorder b fac cp cs ro elastic m = Some r ->
  let g := layout nx nz iorder b in ~ 0 <= x < nax g * naz g ->
  m_rox r x = m_rox m x /\ m_roz r x = m_roz m x /\ m_l2m r x = m_l2m m x /\ m_lam r x = m_lam m x /\ m_muu r x = m_muu m x.
Proof.
  intros H Hr g Ho. pose proof (layout_ok nx nz iorder b fac cp cs ro H) as La. cbv zeta in La. pose proof (start_p nx nz iorder b) as (E1 & E2 & E3 & E4). 
  unfold readModel in Hr. destruct (zero_density nx nz ro) eqn:Hd; [discriminate|]. cbv zeta in Hr. apply Some_eq in Hr. rewrite <- Hr. clear Hr. cbn [m_rox m_roz m_l2m m_lam m_muu].
  fold g in La |- *. set (px := startPx nx nz iorder b) in *. set (pz := startPz nx nz iorder b) in *. set (tx := startTx nx nz iorder b) in *. set (tz := startTz nx nz iorder b) in *.
  destruct La as (L1 & L2 & L3 & L4 & L5 & L6 & L7 & L8 & L9 & L10 & L11 & L12 & L13 & L14 & L15 & L16 & L17 & L18 & L19 & L20 & L21 & L22 & L23 & L24 & L25 & L26 & L27 & L28 & L29 & L30).
  assert (Hx : 1 <= nx) by apply H. assert (Hz : 1 <= nz) by apply H. assert (Hn : 0 <= npml b) by apply H.
  assert (Pt : 0 <= pad b (top b)) by (apply pad_nonneg; exact Hn). assert (Pu : 0 <= pad b (bot b)) by (apply pad_nonneg; exact Hn). assert (Pl : 0 <= pad b (lef b)) by (apply pad_nonneg; exact Hn). assert (Pr : 0 <= pad b (rig b)) by (apply pad_nonneg; exact Hn).
  rewrite L9, L10, L11, L12, L14, L16, L18, L20, L13, L15, L17, L19.
  assert (N1 : 0 < naz g) by lia.
  assert (Ex : exists a c, x = a * naz g + c /\ 0 <= c < naz g /\ ~ 0 <= a < nax g).
  { exists (x / naz g), (x mod naz g). split; [rewrite Z.mul_comm; apply Z.div_mod; lia|]. split; [apply Z.mod_pos_bound; lia|]. intros A. apply Ho. pose proof (Z.div_mod x (naz g)). pose proof (Z.mod_pos_bound x (naz g)). nia. }
  destruct Ex as (a & c & -> & Hc & Ha). clear Ho.
  assert (EV : forall xo zo m, 0 <= xo - pad b (lef b) -> xo + nx + pad b (rig b) <= nax g -> pad b (top b) <= zo -> zo + nz + pad b (bot b) <= naz g -> extend_v nx nz iorder b xo (xo + nx) zo (zo + nz) m (a * naz g + c) = m (a * naz g + c)).
  { intros xo zo m' A B C D. pose proof (extend_v_ok nx nz iorder b Hx Hz Hn xo zo m' C D a c Hc) as Q. fold g in Q. rewrite Q. match goal with |- context [if ?c then _ else _] => replace c with false by (unfold inside; lia) end. reflexivity. }
  assert (EP : forall xo zo m, 0 <= xo - pad b (lef b) -> xo + nx + pad b (rig b) <= nax g -> pad b (top b) <= zo -> zo + nz + pad b (bot b) <= naz g -> extend_p nx nz iorder b (xo - pad b (lef b)) (xo + nx + pad b (rig b)) (zo - pad b (top b)) (zo + nz + pad b (bot b)) m (a * naz g + c) = m (a * naz g + c)).
  { intros xo zo m' A B C D. pose proof (extend_p_ok nx nz iorder b Hx Hz Hn xo zo m' C D a c Hc) as Q. fold g in Q. rewrite Q. match goal with |- context [if ?c then _ else _] => replace c with false by (unfold inside; lia) end. reflexivity. }
  assert (EC : forall l ux uz xo zo m, 0 <= xo -> xo + nx <= nax g -> 0 <= zo -> zo + nz <= naz g -> clear (naz g) nx nz l ux uz xo zo m (a * naz g + c) = m (a * naz g + c)).
  { intros l ux uz xo zo m' A B C D. rewrite clear_ok by lia. match goal with |- context [if ?c then _ else _] => replace c with false by (unfold inside; lia) end. reflexivity. }
  assert (EF : forall xo zo f1 f2 f3 f4 m, 0 <= xo -> xo + nx <= nax g -> 0 <= zo -> zo + nz <= naz g -> fill (naz g) nx nz xo zo f1 f2 f3 f4 m (a * naz g + c) = m (a * naz g + c)).
  { intros xo zo f1 f2 f3 f4 m' A B C D. rewrite (fill_ok (naz g) nx nz xo zo f1 f2 f3 f4 (fun ix iz => if ix =? nx - 1 then (if iz =? nz - 1 then f3 ix iz else f2 ix iz) else if iz =? nz - 1 then f1 ix iz else f4 ix iz)) by (lia || reflexivity). match goal with |- context [if ?c then _ else _] => replace c with false by (unfold inside; lia) end. reflexivity. }
  assert (EM : forall xo xr zo zb m, 0 <= xo <= nax g -> 0 <= xr -> pz <= zo < naz g -> 0 <= zb < naz g -> pml nx nz iorder b xo xr zo zb m (a * naz g + c) = m (a * naz g + c)).
  { intros xo xr zo zb m' A B C D. apply (pml_outside nx nz iorder b); fold g pz; try lia. }
  conjs.
  - rewrite EV, EC by lia. rewrite on_ok. unfold pml_v, fill_rox. fold g. destruct elastic; [rewrite EM by lia|]; apply EF; lia.
  - rewrite EV, EC by lia. rewrite on_ok. unfold pml_v, fill_roz. fold g. destruct elastic; [rewrite EM by lia|]; apply EF; lia.
  - rewrite EP by lia. rewrite on_ok. unfold pml_p, fill_l2m. fold g px pz. destruct elastic; [rewrite EM by lia|]; apply EF; lia.
  - destruct elastic; [|reflexivity]. cbn [on]. rewrite EP by lia. unfold pml_p, fill_lam. fold g px pz. rewrite EM by lia. apply EF; lia.
  - destruct elastic; [|reflexivity]. cbn [on]. rewrite EP by lia. unfold pml_t, fill_muu. fold g tx tz. rewrite EM by lia. apply EF; lia.
Qed.
Print Assumptions C74_in_bounds.
(** The default grid of the elastic scheme: free top, PML elsewhere; a model of two columns and two rows *)
Definition default_bnd : bnd := mk_bnd 1 2 2 2 20.
Definition ro2 (k : Z) : R := if k <? 2 then 1%R else 3%R.
Lemma sizes_ex b fac : 0 <= npml b -> fac <> 0%R -> sizes 2 2 4 b fac.
Proof. intros. unfold sizes. conjs; (lia || reflexivity || assumption). Qed.
Lemma ro2_ok b fac cp cs elastic m : exists r, readModel 2 2 4 b fac cp cs ro2 elastic m = Some r.
Proof.
  destruct (readModel 2 2 4 b fac cp cs ro2 elastic m) eqn:E; [eauto|]. apply C74_zero_density in E; [|lia|lia]. destruct E as (i & j & _ & _ & E). unfold ro2 in E. destruct (i * 2 + j <? 2); lra.
Qed.
(** vx between the columns, 15 rows below the model in the absorbing side: the mean density is 2 *)
Example C74_nonvacuous m : exists r, readModel 2 2 4 default_bnd 5 (fun _ => 2%R) (fun _ => 1%R) ro2 true m = Some r /\
  m_rox r (22 * 26 + 17) = (5 / 2)%R /\ m_l2m r (21 * 26 + 1) = 20%R /\ m_lam r (41 * 26 + 1) = 30%R /\ m_muu r (22 * 26 + 2) = 5%R.
Proof.
  destruct (ro2_ok default_bnd 5 (fun _ => 2%R) (fun _ => 1%R) true m) as (r & E). exists r. split; [exact E|].
  pose proof (C74_parameters 2 2 4 default_bnd 5 (fun _ => 2%R) (fun _ => 1%R) ro2 true m r (sizes_ex default_bnd 5 ltac:(cbn; lia) ltac:(lra)) E) as C. cbv zeta in C.
  destruct (C 0 16 ltac:(unfold position; cbn; lia)) as (A & _). destruct (C 0 0 ltac:(unfold position; cbn; lia)) as (_ & _ & B & _ & D). destruct (C 20 0 ltac:(unfold position; cbn; lia)) as (_ & _ & _ & F & _). specialize (F eq_refl).
  change (m_rox r (22 * 26 + 17) = (5 * buoyancy_x 2 (fun _ _ => 2) (fun ix iz => ro2 (ix * 2 + iz)%Z) 0 1)%R) in A.
  change (m_l2m r (21 * 26 + 1) = (5 * modulus (fun _ _ => 2) (fun ix iz => ro2 (ix * 2 + iz)%Z) 0 0)%R) in B.
  change (m_lam r (41 * 26 + 1) = (5 * lame (fun _ _ => 2) (fun _ _ => 1) (fun ix iz => ro2 (ix * 2 + iz)%Z) 1 0)%R) in F.
  specialize (D eq_refl ltac:(intros i j _ _; unfold ro2; destruct (_ <? 2); lra)).
  change (m_muu r (22 * 26 + 2) = (5 * harmonic (1 * (1 * 1)) (1 * (1 * 1)) (1 * (1 * 1)) (1 * (1 * 1)))%R) in D.
  rewrite A, B, F, D. rewrite harmonic_same by lra. unfold buoyancy_x, modulus, lame, rigidity, modulus, mean. destruct (Req_EM_T 2 0); [lra|]. 
  change (ro2 (0 * 2 + 0)) with 1%R. change (ro2 (0 * 2 + 1)) with 1%R. change (ro2 (1 * 2 + 0)) with 3%R. change (ro2 (nearest 2 (0 + 1) * 2 + 1)) with 3%R. conjs; field.
Qed.

(** ** C75 *)
(** Where the density is the same in neighbouring columns, and in the bottom row and the right column, the rigidity at
    a corner is the harmonic mean of that of the four cells. *)
Theorem C75_rigidity nx nz CS RO i j : 0 <= i < nx -> 0 <= j < nz ->
  (j < nz - 1 -> forall k, k = j \/ k = j + 1 -> RO (nearest nx (i + 1)) k = RO i k) ->
  corner_rigidity' nx nz CS RO i j = corner_rigidity nx nz CS RO i j.
Proof.
  intros Hi Hj E. unfold corner_rigidity', corner_rigidity, rigidity. cbv zeta. destruct (Z.eqb_spec j (nz - 1)); [reflexivity|]. rewrite (near_id nz (j + 1)) by lia. rewrite (E ltac:(lia) j (or_introl eq_refl)), (E ltac:(lia) (j + 1) (or_intror eq_refl)). reflexivity.
Qed.
Print Assumptions C75_rigidity.
Example C75_rigidity_nonvacuous : corner_rigidity' 2 2 (fun _ _ => 2%R) (fun _ z => IZR (z + 1)) 0 0 = corner_rigidity 2 2 (fun _ _ => 2%R) (fun _ z => IZR (z + 1)) 0 0.
Proof. apply C75_rigidity; [lia|lia|reflexivity]. Qed.
(** False: it is the harmonic mean of the four cells in general.  Columns of density 1 and 3, S velocity 1: the mean is 3/2,
    the value used is 1. *)
Theorem C75_rigidity_refuted m : exists r, readModel 2 2 4 default_bnd 1 (fun _ => 2%R) (fun _ => 1%R) ro2 true m = Some r /\
  m_muu r (22 * 26 + 2) = 1%R /\ corner_rigidity 2 2 (fun _ _ => 1%R) (fun ix iz => ro2 (ix * 2 + iz)) 0 0 = (3 / 2)%R.
Proof.
  destruct (ro2_ok default_bnd 1 (fun _ => 2%R) (fun _ => 1%R) true m) as (r & E). exists r. split; [exact E|].
  pose proof (C74_parameters 2 2 4 default_bnd 1 (fun _ => 2%R) (fun _ => 1%R) ro2 true m r (sizes_ex default_bnd 1 ltac:(cbn; lia) ltac:(lra)) E) as C. cbv zeta in C.
  destruct (C 0 0 ltac:(unfold position; cbn; lia)) as (_ & _ & _ & _ & D). specialize (D eq_refl ltac:(intros i j _ _; unfold ro2; destruct (_ <? 2); lra)).
  change (m_muu r (22 * 26 + 2) = (1 * harmonic (1 * (1 * 1)) (1 * (1 * 1)) (1 * (1 * 1)) (1 * (1 * 1)))%R) in D. rewrite D, harmonic_same by lra. split; [ring|].
  change (harmonic (1 * (1 * 1)) (1 * (1 * 1)) (3 * (1 * 1)) (3 * (1 * 1)) = (3 / 2)%R). unfold harmonic. destruct (Req_EM_T _ 0); [lra|field].
Qed.
Print Assumptions C75_rigidity_refuted.

(** With PML sides in the elastic scheme the buoyancy for vz is that of another cell in the first column (PML at the
    left) and in the last row (PML at the bottom). *)
Theorem C75_vertical_pml nx nz iorder b fac cp cs ro m r : sizes nx nz iorder b fac -> 2 <= nx -> 2 <= nz -> readModel nx nz iorder b fac cp cs ro true m = Some r ->
  let g := layout nx nz iorder b in
  let CP := fun ix iz => cp (ix * nz + iz) in let RO := fun ix iz => ro (ix * nz + iz) in
  forall a c, position nx nz b a c -> let i := nearest nx a in let j := nearest nz c in
  let i' := if (lef b =? 2) && (i =? 0) then 1 else i in
  let j' := if (bot b =? 2) && (j =? nz - 1) then nz - 2 else j in
  m_roz r ((ioZx g + a) * naz g + (ioZz g + c)) = (fac * (if Req_EM_T (CP i j) 0 then 0 else / mean (RO i' j') (RO i' (nearest nz (j' + 1)%Z))))%R.
Proof.
  intros H Hx2 Hz2 Hr g CP RO a c Hp i j i' j'. pose proof (C74_parameters nx nz iorder b fac cp cs ro true m r H Hr) as _. pose proof (layout_ok nx nz iorder b fac cp cs ro H) as La. cbv zeta in La.
  unfold readModel in Hr. destruct (zero_density nx nz ro) eqn:Hd; [discriminate|]. cbv zeta in Hr. apply Some_eq in Hr. rewrite <- Hr. clear Hr. cbn [m_rox m_roz m_l2m m_lam m_muu on].
  fold g in La |- *. set (px := startPx nx nz iorder b) in *. set (pz := startPz nx nz iorder b) in *. set (tx := startTx nx nz iorder b) in *. set (tz := startTz nx nz iorder b) in *.
  destruct La as (L1 & L2 & L3 & L4 & L5 & L6 & L7 & L8 & L9 & L10 & L11 & L12 & L13 & L14 & L15 & L16 & L17 & L18 & L19 & L20 & L21 & L22 & L23 & L24 & L25 & L26 & L27 & L28 & L29 & L30).
  assert (Hx : 1 <= nx) by apply H. assert (Hz : 1 <= nz) by apply H. assert (Hn : 0 <= npml b) by apply H.
  assert (Hi : 0 <= i < nx) by (apply near_in; lia). assert (Hj : 0 <= j < nz) by (apply near_in; lia).
  assert (Pt : 0 <= pad b (top b)) by (apply pad_nonneg; exact Hn). assert (Pu : 0 <= pad b (bot b)) by (apply pad_nonneg; exact Hn). assert (Pl : 0 <= pad b (lef b)) by (apply pad_nonneg; exact Hn). assert (Pr : 0 <= pad b (rig b)) by (apply pad_nonneg; exact Hn).
  rewrite L11, L12. rewrite (at_extended nx nz iorder b fac cp cs ro (ioZx g) (ioZz g) _ _ a c H L3 L4 (extend_v_ok nx nz iorder b Hx Hz Hn (ioZx g) (ioZz g) _ L3 L4) Hp). fold i j g.
  rewrite clear_ok by lia. replace (ioZx g + i - ioZx g) with i by ring. replace (ioZz g + j - ioZz g) with j by ring. replace (inside 0 nx 0 nz i j) with true by (unfold inside; lia).
  replace (i + px) with (px + i) by ring. replace (j + pz) with (pz + j) by ring. unfold pml_p. fold g px pz.
  rewrite (pml_ok nx nz iorder b px pz); fold g pz; try lia. 2:{ unfold inside; lia. }
  pose proof (at_l2m nx nz iorder b fac cp cs ro i j (m_l2m m) H Hi Hj) as M. fold px pz g in M. rewrite M. clear M.
  assert (V : pml_v nx nz iorder b (fill_roz nx nz iorder b fac ro (m_roz m)) ((ioZx g + i) * naz g + (ioZz g + j)) = (fac * / mean (RO i' j') (RO i' (nearest nz (j' + 1)%Z)))%R).
  { assert (A : forall i j, 0 <= i < nx -> 0 <= j < nz -> fill_roz nx nz iorder b fac ro (m_roz m) ((ioZx g + i) * naz g + (ioZz g + j)) = (fac * / mean (RO i j) (RO i (nearest nz (j + 1)%Z)))%R) by (intros; apply (at_z nx nz iorder b fac cp cs ro); assumption).
    set (f0 := fill_roz _ _ _ _ _ _ _) in *. clearbody f0. unfold pml_v, pml. fold g pz.
    assert (F1 : forall i j, 0 <= i < nx -> 0 <= j < nz -> on (lef b =? 2) (copy_col (naz g) 0 (ioXx g) 0 (naz g) (ioXx g)) f0 ((ioZx g + i) * naz g + (ioZz g + j)) = f0 ((ioZx g + (if (lef b =? 2) && (i =? 0) then 1 else i)) * naz g + (ioZz g + j))).
    { intros u v Hu Hv. rewrite on_ok. destruct (lef b =? 2); [|reflexivity]. cbn [andb]. rewrite copy_col_ok by lia. destruct (Z.eqb_spec u 0).
      - replace (inside 0 (ioXx g) 0 (naz g) (ioZx g + u) (ioZz g + v)) with true by (unfold inside; lia). now rewrite L23.
      - replace (inside 0 (ioXx g) 0 (naz g) (ioZx g + u) (ioZz g + v)) with false by (unfold inside; lia). reflexivity. }
    set (f1 := on (lef b =? 2) _ f0) in *. clearbody f1.
    assert (F2 : forall i j, 0 <= i < nx -> 0 <= j < nz -> on (rig b =? 2) (copy_col (naz g) (ioXx g + nx - 1 + 1) (nax g) 0 (naz g) (ioXx g + nx - 1)) f1 ((ioZx g + i) * naz g + (ioZz g + j)) = f1 ((ioZx g + i) * naz g + (ioZz g + j))).
    { intros u v Hu Hv. rewrite on_ok. destruct (rig b =? 2); [|reflexivity]. rewrite copy_col_ok by lia. now replace (inside (ioXx g + nx - 1 + 1) (nax g) 0 (naz g) (ioZx g + u) (ioZz g + v)) with false by (unfold inside; lia). }
    set (f2 := on (rig b =? 2) _ f1) in *. clearbody f2.
    assert (F3 : forall i j, 0 <= i < nx -> 0 <= j < nz -> on (top b =? 2) (copy_row (naz g) 0 (nax g) 0 pz (ioXz g)) f2 ((ioZx g + i) * naz g + (ioZz g + j)) = f2 ((ioZx g + i) * naz g + (ioZz g + j))).
    { intros u v Hu Hv. rewrite on_ok. destruct (top b =? 2); [|reflexivity]. rewrite copy_row_ok by lia. now replace (inside 0 (nax g) 0 pz (ioZx g + u) (ioZz g + v)) with false by (unfold inside; lia). }
    set (f3 := on (top b =? 2) _ f2) in *. clearbody f3.
    rewrite on_ok. assert (Hi' : 0 <= i' < nx) by (unfold i'; destruct (lef b =? 2), (i =? 0); cbn [andb]; lia). assert (Hj' : 0 <= j' < nz) by (unfold j'; destruct (bot b =? 2), (j =? nz - 1); cbn [andb]; lia).
    rewrite <- A by assumption. unfold i'. rewrite <- F1 by assumption. rewrite <- F2 by assumption. rewrite <- F3 by assumption. unfold j'. destruct (bot b =? 2); [|reflexivity]. cbn [andb]. 
    rewrite copy_row_ok by lia. destruct (Z.eqb_spec j (nz - 1)).
    - replace (inside 0 (nax g) (ioXz g + nz - 1 + 1) (naz g) (ioZx g + i) (ioZz g + j)) with true by (unfold inside; lia). f_equal. lia.
    - replace (inside 0 (nax g) (ioXz g + nz - 1 + 1) (naz g) (ioZx g + i) (ioZz g + j)) with false by (unfold inside; lia). reflexivity. }
  rewrite V. apply (modulus_zero nx nz iorder b fac cp cs ro i j H Hd Hi Hj).
Qed.
Print Assumptions C75_vertical_pml.
(** False: with the default boundaries of the elastic scheme every vz node has the buoyancy of its own cells. *)
Theorem C75_default_pml_refuted m : exists r, readModel 2 2 4 default_bnd 1 (fun _ => 2%R) (fun _ => 1%R) ro2 true m = Some r /\
  m_roz r (21 * 26 + 2) = (1 / 3)%R /\ buoyancy_z 2 (fun _ _ => 2%R) (fun ix iz => ro2 (ix * 2 + iz)) 0 0 = 1%R.
Proof.
  destruct (ro2_ok default_bnd 1 (fun _ => 2%R) (fun _ => 1%R) true m) as (r & E). exists r. split; [exact E|].
  pose proof (C75_vertical_pml 2 2 4 default_bnd 1 (fun _ => 2%R) (fun _ => 1%R) ro2 m r (sizes_ex default_bnd 1 ltac:(cbn; lia) ltac:(lra)) ltac:(lia) ltac:(lia) E 0 0 ltac:(unfold position; cbn; lia)) as C. cbv zeta in C.
  change (m_roz r (21 * 26 + 2) = (1 * (if Req_EM_T 2 0 then 0 else / mean 3 3))%R) in C. rewrite C. change (buoyancy_z 2 (fun _ _ => 2%R) (fun ix iz => ro2 (ix * 2 + iz)) 0 0) with (if Req_EM_T 2 0 then 0%R else / mean 1 1)%R. rewrite !mean_same. destruct (Req_EM_T 2 0); [lra|]. split; field.
Qed.
Print Assumptions C75_default_pml_refuted.
