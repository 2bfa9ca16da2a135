(** Proofs about the visco-acoustic and visco-elastic schemes. *)
From Coq Require Import ZArith Reals List Lia Lra Bool FunctionalExtensionality.
From Verif Require Import ListAux FdKernels FdProofs FdOutputProofs Marchenko MarchenkoProofs PropertiesFftLayout PropertiesDft ReadModel ReadModelSpec ReadModelProofs ViscoSpec Visco.
Import ListNotations.
Local Open Scope Z_scope.

(** ** what a loop does at one position *)
Lemma fold_view {S V} (view : S -> V) (step : S -> Z -> S) (F : V -> V) t (l : list Z) : NoDup l ->
  (forall s a, a <> t -> view (step s a) = view s) -> (forall s, view (step s t) = F (view s)) ->
  forall s, (In t l -> view (fold_left step l s) = F (view s)) /\ (~ In t l -> view (fold_left step l s) = view s).
Proof.
  intros ND Ho Ht. induction l as [|a l IH]; intros s; cbn [fold_left].
  - split; [intros []|reflexivity].
  - inversion ND as [|? ? N ND']; subst. specialize (IH ND'). destruct (IH (step s a)) as [I1 I2]. destruct (Z.eq_dec a t) as [->|E].
    + split; [intros _|intros H; exfalso; apply H; now left]. rewrite I2 by exact N. apply Ht.
    + split.
      * intros [E'|H]; [contradiction|]. rewrite I1 by exact H. now rewrite Ho.
      * intros H. rewrite I2 by (intros H'; apply H; now right). now apply Ho.
Qed.
Lemma range_view {S V} (view : S -> V) (step : S -> Z -> S) (F : V -> V) t a b s :
  (forall s i, i <> t -> view (step s i) = view s) -> (forall s, view (step s t) = F (view s)) ->
  view (fold_left step (range a b) s) = if (a <=? t) && (t <? b) then F (view s) else view s.
Proof.
  intros Ho Ht. destruct (fold_view view step F t (range a b) (range_NoDup a b) Ho Ht s) as [I1 I2].
  destruct (Z.leb_spec a t); destruct (Z.ltb_spec t b); cbn [andb]; try (apply I2; intros H'; apply in_range in H'; lia). apply I1, in_range. lia.
Qed.
(** loops whose steps outside of the window do not change the view *)
Lemma fold_same {S V A} (view : S -> V) (step : S -> A -> S) (l : list A) s : (forall s a, In a l -> view (step s a) = view s) -> view (fold_left step l s) = view s.
Proof. revert s. induction l as [|a l IH]; intros s H; [reflexivity|]. cbn [fold_left]. rewrite IH by (intros; apply H; now right). apply H. now left. Qed.
Lemma range_view' {S V} (view : S -> V) (step : S -> Z -> S) (F : V -> V) t a b s : a <= t < b ->
  (forall s i, a <= i < b -> i <> t -> view (step s i) = view s) -> (forall s, view (step s t) = F (view s)) ->
  view (fold_left step (range a b) s) = F (view s).
Proof.
  intros H Ho Ht. rewrite (range_split a t b) by lia. rewrite fold_left_app.
  replace (range t b) with (t :: range (t + 1) b).
  2:{ rewrite (range_split t (t + 1) b) by lia. rewrite (range_snoc t t) by lia. rewrite (range_nil t t) by lia. reflexivity. }
  cbn [fold_left]. rewrite fold_same by (intros s' i Hi; apply in_range in Hi; apply Ho; lia). rewrite Ht. f_equal. apply fold_same. intros s' i Hi. apply in_range in Hi. apply Ho; lia.
Qed.

Lemma upto_ext n f g : (forall k, (k < n)%nat -> f k = g k) -> upto n f = upto n g.
Proof. induction n as [|n IH]; intros H; [reflexivity|]. cbn [upto]. rewrite IH by (intros; apply H; lia). now rewrite H by lia. Qed.
Lemma upto_add n f g : upto n (fun k => f k + g k)%R = (upto n f + upto n g)%R.
Proof. induction n as [|n IH]; cbn [upto]; [ring|]. rewrite IH. ring. Qed.
Lemma upto_scale n c f : upto n (fun k => c * f k)%R = (c * upto n f)%R.
Proof. induction n as [|n IH]; cbn [upto]; [ring|]. rewrite IH. ring. Qed.
Lemma response_ext G H d d' n : (forall j, G j = H j) -> (forall k, d k = d' k) -> response G d n = response H d' n.
Proof. intros E1 E2. apply upto_ext. intros. now rewrite E1, E2. Qed.

(** ** one standard linear solid *)
Section SOLID.
Variables (M T s dt : R).
Hypothesis Hs : (1 + s * dt / 2 <> 0)%R.
(** what one unit of strain adds to the memory variable *)
Definition gain : R := (/ (1 + s * dt / 2) * (/ 2 * (1 - T) * s * M * dt))%R.
Lemma relaxation_first : relaxation M T s dt 1 = (M * T + gain)%R.
Proof. unfold relaxation, gain. cbn [Nat.sub pow]. field. lra. Qed.
Lemma relaxation_next j : (1 <= j)%nat -> relaxation M T s dt (S j) = (relaxation M T s dt j + gain * (decay s dt ^ (j - 1) + decay s dt ^ j))%R.
Proof.
  intros H. unfold relaxation, gain. replace (S j - 1)%nat with (S (j - 1)) by lia. replace (decay s dt ^ j)%R with (decay s dt * decay s dt ^ (j - 1))%R by (replace j with (S (j - 1)) at 2 by lia; reflexivity).
  change (decay s dt ^ S (j - 1))%R with (decay s dt * decay s dt ^ (j - 1))%R. generalize (decay s dt ^ (j - 1))%R. intros x. unfold decay. field. lra.
Qed.
(** the memory variable after n steps *)
Definition memory (strain : nat -> R) (n : nat) : R := upto n (fun k => gain * decay s dt ^ (n - k - 1) * strain k)%R.
Lemma memory_next d n : memory d (S n) = (decay s dt * memory d n + gain * d n)%R.
Proof.
  unfold memory. cbn [upto]. rewrite <- upto_scale. f_equal.
  - apply upto_ext. intros k Hk. replace (S n - k - 1)%nat with (S (n - k - 1)) by lia. cbn [pow]. ring.
  - replace (S n - n - 1)%nat with O by lia. cbn [pow]. ring.
Qed.
Lemma response_next d n : response (relaxation M T s dt) d (S n) = (response (relaxation M T s dt) d n + M * T * d n + memory d n + memory d (S n))%R.
Proof.
  rewrite memory_next. unfold response. cbn [upto]. replace (S n - n)%nat with 1%nat by lia. rewrite relaxation_first.
  rewrite (upto_ext n _ (fun k => relaxation M T s dt (n - k) * d k + (gain * decay s dt ^ (n - k - 1) * d k + decay s dt * (gain * decay s dt ^ (n - k - 1) * d k)))%R).
  - rewrite !upto_add, upto_scale. unfold memory. ring.
  - intros k Hk. replace (S n - k)%nat with (S (n - k)) by lia. rewrite relaxation_next by lia. replace (decay s dt ^ (n - k))%R with (decay s dt * decay s dt ^ (n - k - 1))%R by (replace (n - k)%nat with (S (n - k - 1)) at 2 by lia; reflexivity). ring.
Qed.
End SOLID.

(** ** viscoacoustic4.c *)
Lemma weight_one k : weight k = 1%R. Proof. reflexivity. Qed.
Lemma mech_ok dt l2m div s e p q : (1 + s * dt / 2 <> 0)%R ->
  mech dt l2m div s e 1 (p, q) =
  let q' := (decay s dt * q + gain l2m (s * e) s dt * div)%R in ((p - (l2m * (s * e) * div + q + q'))%R, q').
Proof.
  intros H. assert (H' : (1 + / 2 * s * dt <> 0)%R) by (replace (1 + / 2 * s * dt)%R with (1 + s * dt / 2)%R by field; exact H).
  unfold mech. cbn [fst snd]. cbv zeta.
  assert (E : (1 / (1 + / 2 * s * dt) * (q * (1 - / 2 * s * dt) + / 2 * ((1 - s * e) * s * l2m) * div * dt) = decay s dt * q + gain l2m (s * e) s dt * div)%R) by (unfold decay, gain; field; lra).
  rewrite E. f_equal. ring.
Qed.
Lemma ahead_x (g : FdKernels.grid) vx ix iz : dxvx g vx ix iz = ahead (fun x => vx (x * naz g + iz)) ix.
Proof. unfold dxvx, ahead, c1, c2. field. Qed.
Lemma ahead_z (g : FdKernels.grid) vz ix iz : dzvz g vz ix iz = ahead (fun z => vz (ix * naz g + z)) iz.
Proof. unfold dzvz, ahead, c1, c2. rewrite !Z.add_assoc. replace (ix * naz g + (iz - 1)) with (ix * naz g + iz - 1) by ring. field. Qed.
Lemma behind_z (g : FdKernels.grid) vx ix iz : dzvx g vx ix iz = behind (fun z => vx (ix * naz g + z)) iz.
Proof. unfold dzvx, behind, ahead, c1, c2. replace (ix * naz g + (iz - 1 + 1)) with (ix * naz g + iz) by ring. replace (ix * naz g + (iz - 1 + 2)) with (ix * naz g + iz + 1) by ring. replace (ix * naz g + (iz - 1 - 1)) with (ix * naz g + iz - 2) by ring. replace (ix * naz g + (iz - 1)) with (ix * naz g + iz - 1) by ring. field. Qed.
Lemma behind_x (g : FdKernels.grid) vz ix iz : dxvz g vz ix iz = behind (fun x => vz (x * naz g + iz)) ix.
Proof. unfold dxvz, behind, ahead, c1, c2. replace (ix - 1 + 1) with ix by ring. replace (ix - 1 + 2) with (ix + 1) by ring. replace (ix - 1 - 1) with (ix - 2) by ring. field. Qed.

Section ACOUSTIC.
Variables (g : FdKernels.grid) (dt : R) (nfw : Z) (l2m tss tep : Z -> R).
Hypothesis Hg : 0 <= ioPz g /\ iePz g <= naz g.
Let n1 := naz g.
Let at3 (x z k : Z) : Z := (x * n1 + z) * nfw + k.
Lemma at3_eq x z k : k + (x * n1 * nfw + z * nfw) = at3 x z k. Proof. unfold at3. ring. Qed.
(** the pressure and all memory variables of one position *)
Definition view (x z : Z) (pq : (Z -> R) * (Z -> R)) : R * (Z -> R) := (fst pq (x * n1 + z), fun k => if (0 <=? k) && (k <? nfw) then snd pq (at3 x z k) else 0%R).
Lemma point_other vx vz x z x' z' pq : 0 <= z < n1 -> 0 <= z' < n1 -> (x', z') <> (x, z) -> view x z (point g dt nfw l2m tss tep vx vz x' z' pq) = view x z pq.
Proof.
  intros Hz Hz' N. unfold point. apply fold_same. intros s k Hk. apply in_range in Hk. unfold view. cbn [fst snd]. rewrite at3_eq. f_equal.
  - apply upd_other. intros E. apply cell_eq in E; [|assumption|assumption]. apply N. f_equal; lia.
  - apply functional_extensionality. intros j. destruct ((0 <=? j) && (j <? nfw)) eqn:Ej; [|reflexivity]. apply upd_other. intros E. unfold at3 in E. apply cell_eq in E; [|lia|lia]. destruct E as [E _]. apply cell_eq in E; [|assumption|assumption]. apply N. f_equal; lia.
Qed.
Definition mech_view (div : R) (x z : Z) (v : R * (Z -> R)) : R * (Z -> R) :=
  let q' := fun k => (decay (tss (at3 x z k)) dt * snd v k + gain (l2m (x * n1 + z)) (tss (at3 x z k) * tep (at3 x z k)) (tss (at3 x z k)) dt * div)%R in
  ((fst v - upto (Z.to_nat nfw) (fun k => l2m (x * n1 + z)%Z * (tss (at3 x z (Z.of_nat k)) * tep (at3 x z (Z.of_nat k))) * div + snd v (Z.of_nat k) + q' (Z.of_nat k)))%R,
   fun k => if (0 <=? k) && (k <? nfw) then q' k else 0%R).
Lemma point_here vx vz x z pq : 0 <= z < n1 -> 0 <= nfw -> (forall k, 0 <= k < nfw -> (1 + tss (at3 x z k) * dt / 2 <> 0)%R) ->
  view x z (point g dt nfw l2m tss tep vx vz x z pq) = mech_view (dxvx g vx x z + dzvz g vz x z) x z (view x z pq).
Proof.
  intros Hz Hn Hs. unfold point. fold n1. cbv zeta. set (div := (dxvx g vx x z + dzvz g vz x z)%R). unfold mech_view. cbn [snd fst].
  set (q' := fun k => (decay (tss (at3 x z k)) dt * snd (view x z pq) k + gain (l2m (x * n1 + z)) (tss (at3 x z k) * tep (at3 x z k)) (tss (at3 x z k)) dt * div)%R).
  assert (P : forall m : nat, Z.of_nat m <= nfw ->
    let r := fold_left (fun pq k => let r := mech dt (l2m (x * n1 + z)) div (tss (k + (x * n1 * nfw + z * nfw))) (tep (k + (x * n1 * nfw + z * nfw))) (weight k) (fst pq (x * n1 + z), snd pq (k + (x * n1 * nfw + z * nfw))) in
      (upd (fst pq) (x * n1 + z) (fst r), upd (snd pq) (k + (x * n1 * nfw + z * nfw)) (snd r))) (range 0 (Z.of_nat m)) pq in
    fst r (x * n1 + z) = (fst pq (x * n1 + z)%Z - upto m (fun k => l2m (x * n1 + z)%Z * (tss (at3 x z (Z.of_nat k)) * tep (at3 x z (Z.of_nat k))) * div + snd (view x z pq) (Z.of_nat k) + q' (Z.of_nat k)))%R /\
    forall k, 0 <= k < nfw -> snd r (at3 x z k) = if k <? Z.of_nat m then q' k else snd pq (at3 x z k)).
  { induction m as [|m IH]; intros Hm.
    - cbn [Z.of_nat]. rewrite range_nil by lia. cbn [fold_left upto]. split; [ring|]. intros k Hk. now replace (k <? 0) with false by lia.
    - rewrite Nat2Z.inj_succ. unfold Z.succ. rewrite range_snoc by lia. rewrite fold_left_app. cbn [fold_left].
      destruct (IH ltac:(lia)) as [I1 I2]. cbv zeta in I1, I2. set (f := fold_left _ (range 0 (Z.of_nat m)) pq) in *. cbv zeta. cbn [fst snd]. rewrite !at3_eq. rewrite weight_one, mech_ok by (apply Hs; lia). cbv zeta. cbn [fst snd].
      assert (Eq : snd f (at3 x z (Z.of_nat m)) = snd (view x z pq) (Z.of_nat m)). { rewrite I2 by lia. replace (Z.of_nat m <? Z.of_nat m) with false by lia. unfold view. cbn [snd]. now replace ((0 <=? Z.of_nat m) && (Z.of_nat m <? nfw)) with true by lia. }
      split.
      + rewrite upd_same. rewrite I1, Eq. cbn [upto]. fold (q' (Z.of_nat m)). ring.
      + intros k Hk. destruct (Z.eq_dec k (Z.of_nat m)) as [->|Nk].
        * rewrite upd_same, Eq. fold (q' (Z.of_nat m)). now replace (Z.of_nat m <? Z.of_nat m + 1) with true by lia.
        * rewrite upd_other by (intros E; unfold at3 in E; lia). rewrite I2 by exact Hk. destruct (Z.ltb_spec k (Z.of_nat m)); destruct (Z.ltb_spec k (Z.of_nat m + 1)); lia || reflexivity. }
  destruct (P (Z.to_nat nfw) ltac:(lia)) as [P1 P2]. rewrite Z2Nat.id in P1, P2 by lia. cbv zeta in P1, P2. unfold view at 1. f_equal.
  - exact P1.
  - apply functional_extensionality. intros k. destruct ((0 <=? k) && (k <? nfw)) eqn:Ek; [|reflexivity]. rewrite P2 by lia. now replace (k <? nfw) with true by lia.
Qed.
Definition pressure_point (x z : Z) : Prop := ioPx g <= x < iePx g /\ ioPz g <= z < iePz g.
Lemma step_here vx vz x z pq : pressure_point x z -> 0 <= nfw -> (forall k, 0 <= k < nfw -> (1 + tss (at3 x z k) * dt / 2 <> 0)%R) ->
  view x z (viscoacoustic g dt nfw l2m tss tep vx vz pq) = mech_view (dxvx g vx x z + dzvz g vz x z) x z (view x z pq).
Proof.
  intros [Hx Hz] Hn Hs. unfold viscoacoustic. apply range_view' with (t := x); [exact Hx| |].
  - intros s i Hi Ni. apply fold_same. intros s' k Hk. apply in_range in Hk. apply point_other; [unfold n1; lia|unfold n1; lia|congruence].
  - intros s. apply range_view' with (t := z); [exact Hz| |].
    + intros s' i Hi Ni. apply point_other; [unfold n1; lia|unfold n1; lia|congruence].
    + intros s'. apply point_here; [unfold n1; lia|exact Hn|exact Hs].
Qed.
Lemma acoustic_run_ok vx vz source n pq x z : pressure_point x z -> 0 <= nfw -> (forall k, 0 <= k < nfw -> (1 + tss (at3 x z k) * dt / 2 <> 0)%R) ->
  (forall k, 0 <= k < nfw -> snd pq (at3 x z k) = 0%R) ->
  let d := fun k => (dxvx g (vx k) x z + dzvz g (vz k) x z)%R in
  let s := fun k => tss (at3 x z (Z.of_nat k)) in let T := fun k => (tss (at3 x z (Z.of_nat k)) * tep (at3 x z (Z.of_nat k)))%R in
  view x z (acoustic_run g dt nfw l2m tss tep vx vz source n pq) =
  ((fst pq (x * n1 + z)%Z + upto n (fun k => source k (x * n1 + z)%Z) - upto (Z.to_nat nfw) (fun k => response (relaxation (l2m (x * n1 + z)) (T k) (s k) dt) d n))%R,
   fun k => if (0 <=? k) && (k <? nfw) then memory (l2m (x * n1 + z)) (T (Z.to_nat k)) (s (Z.to_nat k)) dt d n else 0%R).
Proof.
  intros Hp Hn Hs Hq d s T. induction n as [|n IH]; cbn [acoustic_run].
  - unfold view. f_equal.
    + rewrite (upto_ext (Z.to_nat nfw) _ (fun _ => 0 * 0)%R) by (intros; unfold response; cbn [upto]; ring). rewrite upto_scale. cbn [upto]. ring.
    + apply functional_extensionality. intros k. destruct ((0 <=? k) && (k <? nfw)) eqn:E; [|reflexivity]. apply Hq. lia.
  - pose proof (step_here (vx n) (vz n) x z (acoustic_run g dt nfw l2m tss tep vx vz source n pq) Hp Hn Hs) as S. rewrite IH in S.
    unfold view in S |- *. apply (f_equal fst) in S as S1. apply (f_equal snd) in S as S2. clear S. cbn [fst snd] in S1, S2. cbv zeta. cbn [fst snd]. unfold mech_view in S1, S2. cbn [fst snd] in S1, S2. f_equal.
    + rewrite S1. cbn [upto].
      rewrite (upto_ext (Z.to_nat nfw) (fun k => response _ d (Datatypes.S n)) (fun k => (response (relaxation (l2m (x * n1 + z)) (T k) (s k) dt) d n) + (l2m (x * n1 + z)%Z * T k * d n + memory (l2m (x * n1 + z)) (T k) (s k) dt d n + memory (l2m (x * n1 + z)) (T k) (s k) dt d (Datatypes.S n)))%R).
      2:{ intros k Hk. rewrite response_next by (apply Hs; lia). ring. }
      rewrite (upto_add (Z.to_nat nfw) (fun k => response (relaxation (l2m (x * n1 + z)) (T k) (s k) dt) d n)). match goal with |- (?a + ?b - ?c - ?e + ?h = ?a + (?b + ?h) - (?c + ?e'))%R => replace e' with e; [ring|] end.
      apply upto_ext. intros k Hk. replace ((0 <=? Z.of_nat k) && (Z.of_nat k <? nfw)) with true by lia. rewrite Nat2Z.id. rewrite memory_next. reflexivity.
    + etransitivity; [exact S2|]. apply functional_extensionality. intros k. destruct ((0 <=? k) && (k <? nfw)) eqn:E; [|reflexivity]. rewrite memory_next. unfold s, T. rewrite Z2Nat.id by lia. reflexivity.
Qed.
(** nothing else changes *)
Lemma acoustic_outside vx vz pq : (forall i, (forall x z, pressure_point x z -> i <> x * n1 + z) -> fst (viscoacoustic g dt nfw l2m tss tep vx vz pq) i = fst pq i) /\
  (forall i, (forall x z k, pressure_point x z -> 0 <= k < nfw -> i <> at3 x z k) -> snd (viscoacoustic g dt nfw l2m tss tep vx vz pq) i = snd pq i).
Proof.
  split; intros i Hi; unfold viscoacoustic.
  - apply (fold_same (fun pq => fst pq i)). intros s x Hx. apply in_range in Hx. apply (fold_same (fun pq => fst pq i)). intros s' z Hz. apply in_range in Hz. unfold point. apply (fold_same (fun pq => fst pq i)). intros s'' k Hk. cbn [fst]. apply upd_other. apply Hi. split; lia.
  - apply (fold_same (fun pq => snd pq i)). intros s x Hx. apply in_range in Hx. apply (fold_same (fun pq => snd pq i)). intros s' z Hz. apply in_range in Hz. unfold point. apply (fold_same (fun pq => snd pq i)). intros s'' k Hk. apply in_range in Hk. cbn [snd]. fold n1. rewrite at3_eq. apply upd_other. apply Hi; [split; lia|exact Hk].
Qed.
End ACOUSTIC.

(** ** viscoelastic4.c *)
Section ELASTIC.
Variables (g : FdKernels.grid) (dt : R) (l2m mul tss tep tes : Z -> R).
Hypothesis Hg : 0 <= ioPz g /\ iePz g <= naz g /\ 0 <= ioTz g /\ ieTz g <= naz g.
Let n1 := naz g.
Definition view1 (x z : Z) (sm : (Z -> R) * (Z -> R)) : R * R := (fst sm (x * n1 + z), snd sm (x * n1 + z)).
Lemma column_ok z0 z1 f m z : column z0 z1 f m z = if (z0 <=? z) && (z <? z1) then f z else m z.
Proof.
  unfold column. rewrite (range_view (fun m : Z -> R => m z) _ (fun _ => f z) z).
  - reflexivity.
  - intros s i N. apply upd_other. congruence.
  - intros s. apply upd_same.
Qed.
(** the stress and memory variable of one point after one step *)
Definition solid_step (drive_s drive_m rho : R) (v : R * R) : R * R := let m := (rho * snd v + drive_m)%R in ((fst v - (drive_s + snd v + m))%R, m).
Lemma normal_other t x x' z d1 d2 sm : 0 <= z < n1 -> x' <> x -> view1 x z (normal g l2m tss tep t x' d1 d2 sm) = view1 x z sm.
Proof.
  intros Hz N. assert (D : forall z', 0 <= z' < n1 -> x * n1 + z <> x' * n1 + z') by (intros z' Hz' E; apply cell_eq in E; [lia|assumption|assumption]).
  unfold normal. cbv zeta. rewrite (fold_same (view1 x z)).
  - unfold view1. cbn [fst snd]. f_equal. apply (fold_same (fun s : Z -> R => s (x * n1 + z))). intros s i Hi. apply in_range in Hi. apply upd_other. apply D. unfold n1. lia.
  - intros s i Hi. apply in_range in Hi. unfold view1. cbn [fst snd]. f_equal; apply upd_other; apply D; unfold n1; lia.
Qed.
Lemma normal_here t x z d1 d2 sm : ioPz g <= z < iePz g ->
  view1 x z (normal g l2m tss tep t x d1 d2 sm) =
  let i := x * n1 + z in
  solid_step (tlp l2m tss tep i * d1 z + (tlp l2m tss tep i - 2 * Tus t z) * d2 z) ((- Tmu t z * d2 z + tlm l2m tss tep i * (d1 z + d2 z)) * Tt1 t z) (Tt2 t z * Tt1 t z) (view1 x z sm).
Proof.
  intros Hz. cbv zeta. unfold normal. cbv zeta. fold n1.
  assert (D : forall z', 0 <= z' < n1 -> z' <> z -> x * n1 + z <> x * n1 + z') by (intros z' Hz' E E'; lia).
  rewrite (range_view' (view1 x z) _ (fun v => let m := ((Tt2 t z * snd v - Tmu t z * d2 z + tlm l2m tss tep (x * n1 + z) * (d1 z + d2 z)) * Tt1 t z)%R in ((fst v - m)%R, m)) z _ _ _ Hz).
  - cbv zeta. unfold view1 at 1 2 3 4. cbn [fst snd].
    rewrite (range_view' (fun s : Z -> R => s (x * n1 + z)) _ (fun v => v - (tlp l2m tss tep (x * n1 + z) * d1 z + (tlp l2m tss tep (x * n1 + z) - 2 * Tus t z) * d2 z + snd sm (x * n1 + z)%Z))%R z _ _ _ Hz).
    + unfold solid_step, view1. cbn [fst snd]. f_equal; ring.
    + intros s i Hi Ni. apply upd_other. apply D; [unfold n1; lia|exact Ni].
    + intros s. apply upd_same.
  - intros s i Hi Ni. unfold view1. cbn [fst snd]. f_equal; apply upd_other; (apply D; [unfold n1; lia|exact Ni]).
  - intros s. unfold view1. cbn [fst snd]. rewrite !upd_same. reflexivity.
Qed.
Lemma shear_other t x x' z d sm : 0 <= z < n1 -> x' <> x -> view1 x z (shear g t x' d sm) = view1 x z sm.
Proof.
  intros Hz N. assert (D : forall z', 0 <= z' < n1 -> x * n1 + z <> x' * n1 + z') by (intros z' Hz' E; apply cell_eq in E; [lia|assumption|assumption]).
  unfold shear. destruct (ioTx g <=? x'); [|reflexivity]. apply fold_same. intros s i Hi. apply in_range in Hi. unfold view1. cbn [fst snd]. f_equal; apply upd_other; apply D; unfold n1; lia.
Qed.
Lemma shear_here t x z d sm : ioTx g <= x -> ioTz g <= z < ieTz g ->
  view1 x z (shear g t x d sm) = solid_step (Tus t z * d z) (/ 2 * Tmu t z * d z * Tt1 t z) (Tt2 t z * Tt1 t z) (view1 x z sm).
Proof.
  intros Hx Hz. unfold shear. replace (ioTx g <=? x) with true by lia. apply range_view' with (t := z); [exact Hz| |].
  - intros s i Hi Ni. unfold view1. cbn [fst snd]. fold n1. f_equal; apply upd_other; lia.
  - intros s. unfold view1. cbn [fst snd]. fold n1. rewrite !upd_same. unfold solid_step. cbn [fst snd]. f_equal; ring.
Qed.
Lemma shear_left t x z d sm : x < ioTx g -> view1 x z (shear g t x d sm) = view1 x z sm.
Proof. intros H. unfold shear. now replace (ioTx g <=? x) with false by lia. Qed.
Definition view3 (x z : Z) (s : stresses) : (R * R) * (R * R) * (R * R) := (view1 x z (xx s), view1 x z (zz s), view1 x z (xz s)).
Definition in_pressure (x z : Z) : Prop := ioPx g <= x < iePx g /\ ioPz g <= z < iePz g.
(** where the shear stress is updated with parameters that are set *)
Definition in_shear (x z : Z) : Prop := ioTx g <= x < iePx g /\ ioTz g <= z < ieTz g /\ ioPz g <= z < iePz g.
Section POINT.
Variables (x z : Z).
Let i := x * n1 + z.
Hypothesis Hs : (1 + tss i * dt / 2 <> 0)%R.
Hypothesis Ht : dt <> 0%R.
Let s := tss i.
Let P := (tep i * s)%R.
Let S := (tes i * s)%R.
Definition normal_step (a c : R) : R * R -> R * R :=
  solid_step (l2m i * P * a + (l2m i * P - 2 * (mul i * S)) * c) (gain (l2m i) P s dt * a + (gain (l2m i) P s dt - 2 * gain (mul i) S s dt) * c) (decay s dt).
Definition shear_step (a : R) : R * R -> R * R := solid_step (mul i * S * a) (gain (mul i) S s dt * a) (decay s dt).
Lemma tt1 : (1 / (1 / dt + / 2 * s) = dt / (1 + s * dt / 2))%R.
Proof. fold s in Hs. field. conjs; try exact Ht; lra. Qed.
Lemma set_temps_ok t : ioPz g <= z < iePz g -> let t := set_temps g dt mul tss tes x t in
  Tus t z = (mul i * S)%R /\ Tmu t z = ((1 - S) * s * mul i)%R /\ Tt1 t z = (dt / (1 + s * dt / 2))%R /\ (Tt2 t z * Tt1 t z = decay s dt)%R.
Proof.
  intros Hz. cbn [set_temps Tus Tmu Tt1 Tt2]. rewrite !column_ok. replace ((ioPz g <=? z) && (z <? iePz g)) with true by lia. fold n1 i s. rewrite tt1. conjs; try reflexivity.
  unfold decay. fold s in Hs. field. conjs; try exact Ht; lra.
Qed.
Lemma elastic_step junk vx vz st : in_pressure x z ->
  let r := viscoelastic g dt l2m mul tss tep tes junk vx vz st in
  view1 x z (xx r) = normal_step (dxvx g vx x z) (dzvz g vz x z) (view1 x z (xx st)) /\
  view1 x z (zz r) = normal_step (dzvz g vz x z) (dxvx g vx x z) (view1 x z (zz st)) /\
  (in_shear x z -> view1 x z (xz r) = shear_step (dzvx g vx x z + dxvz g vz x z) (view1 x z (xz st))).
Proof.
  intros [Hx Hz]. cbv zeta. unfold viscoelastic.
  assert (Z1 : 0 <= z < n1) by (unfold n1; lia).
  assert (N : forall t d1 d2 sm, view1 x z (normal g l2m tss tep (set_temps g dt mul tss tes x t) x d1 d2 sm) = normal_step (d1 z) (d2 z) (view1 x z sm)).
  { intros t d1 d2 sm. rewrite normal_here by exact Hz. cbv zeta. destruct (set_temps_ok t Hz) as (E1 & E2 & E3 & E4). rewrite E4, E1, E2, E3. unfold normal_step. fold n1 i. f_equal.
    - unfold tlm, tpp. fold s P. unfold gain. fold s in Hs. field. lra. }
  assert (Sh : forall t d sm, in_shear x z -> view1 x z (shear g (set_temps g dt mul tss tes x t) x d sm) = shear_step (d z) (view1 x z sm)).
  { intros t d sm (T1 & T2 & _). rewrite shear_here by lia. destruct (set_temps_ok t Hz) as (E1 & E2 & E3 & E4). rewrite E4, E1, E2, E3. unfold shear_step. f_equal. unfold gain. fold s in Hs. field. lra. }
  conjs.
  - rewrite (range_view' (fun st : stresses * temps => view1 x z (xx (fst st))) _ (normal_step (dxvx g vx x z) (dzvz g vz x z)) x _ _ _ Hx); [reflexivity| |].
    + intros st' k Hk Nk. cbn [fst xx]. apply normal_other; [exact Z1|exact Nk].
    + intros st'. cbn [fst xx]. apply N.
  - rewrite (range_view' (fun st : stresses * temps => view1 x z (zz (fst st))) _ (normal_step (dzvz g vz x z) (dxvx g vx x z)) x _ _ _ Hx); [reflexivity| |].
    + intros st' k Hk Nk. cbn [fst zz]. apply normal_other; [exact Z1|exact Nk].
    + intros st'. cbn [fst zz]. apply N.
  - intros Hsh. rewrite (range_view' (fun st : stresses * temps => view1 x z (xz (fst st))) _ (shear_step (dzvx g vx x z + dxvz g vz x z)) x _ _ _ Hx); [reflexivity| |].
    + intros st' k Hk Nk. cbn [fst xz]. apply shear_other; [exact Z1|exact Nk].
    + intros st'. cbn [fst xz]. apply (Sh _ (fun iz => dzvx g vx x iz + dxvz g vz x iz)%R). exact Hsh.
Qed.
(** all steps *)
Lemma response_add (G H : nat -> R) d n : response (fun j => G j + H j)%R d n = (response G d n + response H d n)%R.
Proof. unfold response. rewrite <- upto_add. apply upto_ext. intros. ring. Qed.
Lemma response_scale c (G : nat -> R) d n : response (fun j => c * G j)%R d n = (c * response G d n)%R.
Proof. unfold response. rewrite <- upto_scale. apply upto_ext. intros. ring. Qed.
Let GP := relaxation (l2m i) P s dt.
Let GS := relaxation (mul i) S s dt.
Lemma normal_iter (a c src : nat -> R) (v : nat -> R * R) : snd (v O) = 0%R ->
  (forall n, v (Datatypes.S n) = let r := normal_step (a n) (c n) (v n) in ((fst r + src n)%R, snd r)) ->
  forall n, v n = ((fst (v O) + upto n src - (response GP a n + response (fun j => GP j - 2 * GS j) c n))%R, (memory (l2m i) P s dt a n + memory (l2m i) P s dt c n - 2 * memory (mul i) S s dt c n)%R).
Proof.
  intros H0 Hn n. rewrite (response_ext (fun j => GP j - 2 * GS j)%R (fun j => GP j + (- 2) * GS j)%R c c n) by (intros; ring). rewrite (response_add GP (fun j => (- 2) * GS j)%R), response_scale.
  induction n as [|n IH].
  - destruct (v O) as [p q]. cbn [fst snd] in *. subst q. unfold response, memory. cbn [upto]. f_equal; ring.
  - rewrite Hn, IH. unfold normal_step, solid_step. cbn [fst snd]. unfold GP, GS. rewrite !response_next by exact Hs. rewrite !memory_next. cbn [upto]. f_equal; ring.
Qed.
Lemma shear_iter (a src : nat -> R) (v : nat -> R * R) : snd (v O) = 0%R ->
  (forall n, v (Datatypes.S n) = let r := shear_step (a n) (v n) in ((fst r + src n)%R, snd r)) ->
  forall n, v n = ((fst (v O) + upto n src - response GS a n)%R, memory (mul i) S s dt a n).
Proof.
  intros H0 Hn n. induction n as [|n IH].
  - destruct (v O) as [p q]. cbn [fst snd] in *. subst q. unfold response, memory. cbn [upto]. f_equal; ring.
  - rewrite Hn, IH. unfold shear_step, solid_step. cbn [fst snd]. unfold GS. rewrite !response_next by exact Hs. rewrite !memory_next. cbn [upto]. f_equal; ring.
Qed.
End POINT.
End ELASTIC.
