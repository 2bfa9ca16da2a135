(** Properties of the prime-factor transforms of real signals (C59). *)
From Coq Require Import ZArith Reals List Lia Lra Bool.
From Verif Require Import FdKernels FdProofs FdOutputProofs Marchenko MarchenkoProofs KissFft FftSpec FftAux FftInverse KissFftProofs FftSize PropertiesFftSize Pfa PfaProofs PropertiesPfa LibFft PropertiesDft.
Import ListNotations.
Local Open Scope Z_scope.

(** ** proofs *)
Section Loop.
Variables (h : Z) (F1 F2 : C -> C -> C -> C) (wpr wpi : R) (w Y z0 : Z -> C).
Definition pair_step (s : (Z -> C) * C) (k : Z) : (Z -> C) * C :=
  (upd (upd (fst s) k (F1 (fst s k) (fst s (h - k)) (snd s))) (h - k) (F2 (fst s k) (fst s (h - k)) (snd s)), next_w wpr wpi (snd s)).
Hypothesis Hw : forall k, 1 <= k -> next_w wpr wpi (w k) = w (k + 1).
Hypothesis H1 : forall k, 1 <= k -> 2 * k <= h -> F1 (z0 k) (z0 (h - k)) (w k) = Y k.
Hypothesis H2 : forall k, 1 <= k -> 2 * k <= h -> F2 (z0 k) (z0 (h - k)) (w k) = Y (h - k).
Lemma pair_loop K : 0 <= K -> 2 * K <= h ->
  snd (fold_left pair_step (range 1 (K + 1)) (z0, w 1)) = w (K + 1) /\
  forall x, fst (fold_left pair_step (range 1 (K + 1)) (z0, w 1)) x = if (1 <=? x) && (x <=? K) || (h - K <=? x) && (x <? h) then Y x else z0 x.
Proof.
  revert K. refine (natlike_ind _ _ _).
  - intros _. rewrite range_nil by lia. cbn [fold_left fst snd]. split; [reflexivity|]. intros x. replace ((1 <=? x) && (x <=? 0) || (h - 0 <=? x) && (x <? h)) with false by lia. reflexivity.
  - intros K HK IH HKh. unfold Z.succ in *. destruct (IH ltac:(lia)) as [I1 I2]. rewrite range_snoc, fold_left_app by lia. cbn [fold_left]. set (r := fold_left pair_step (range 1 (K + 1)) (z0, w 1)) in *.
    unfold pair_step. cbn [fst snd]. rewrite I1. split; [apply Hw; lia|].
    assert (A : fst r (K + 1) = z0 (K + 1)) by (rewrite I2; replace ((1 <=? K + 1) && (K + 1 <=? K) || (h - K <=? K + 1) && (K + 1 <? h)) with false by lia; reflexivity).
    assert (B : fst r (h - (K + 1)) = z0 (h - (K + 1))) by (rewrite I2; replace ((1 <=? h - (K + 1)) && (h - (K + 1) <=? K) || (h - K <=? h - (K + 1)) && (h - (K + 1) <? h)) with false by lia; reflexivity).
    rewrite A, B, H1, H2 by lia. intros x. rewrite !upd_eq. destruct (Z.eqb_spec x (h - (K + 1))) as [-> |N1]; [|destruct (Z.eqb_spec x (K + 1)) as [-> |N2]].
    + replace ((1 <=? h - (K + 1)) && (h - (K + 1) <=? K + 1) || (h - (K + 1) <=? h - (K + 1)) && (h - (K + 1) <? h)) with true by lia. reflexivity.
    + replace ((1 <=? K + 1) && (K + 1 <=? K + 1) || (h - (K + 1) <=? K + 1) && (K + 1 <? h)) with true by lia. reflexivity.
    + rewrite I2. replace ((1 <=? x) && (x <=? K + 1) || (h - (K + 1) <=? x) && (x <? h)) with ((1 <=? x) && (x <=? K) || (h - K <=? x) && (x <? h)) by lia. reflexivity.
Qed.
End Loop.
Lemma recurrence n s k theta : n <> 0 -> s = 1 \/ s = -1 -> theta = (IZR s * (2 * PI / IZR n))%R ->
  let wpr := (-2 * sin (/ 2 * theta) * sin (/ 2 * theta))%R in
  next_w wpr (sin theta) (root n s k) = root n s (k + 1) /\ (1 + wpr, sin theta)%R = root n s 1.
Proof.
  intros Hn Hs Et. cbv zeta.
  assert (R1 : (1 + -2 * sin (/ 2 * theta) * sin (/ 2 * theta), sin theta)%R = root n s 1).
  { replace (1 + -2 * sin (/ 2 * theta) * sin (/ 2 * theta))%R with (cos theta). 2:{ replace theta with (2 * (/ 2 * theta))%R at 1 by field. rewrite cos_2a_sin. ring. }
    rewrite root_angle by exact Hn. rewrite Rmult_1_r. rewrite Et. destruct Hs as [-> | ->]; [rewrite !Rmult_1_l; reflexivity|]. replace (-1 * (2 * PI / IZR n))%R with (- (2 * PI / IZR n))%R by ring. rewrite cos_neg, sin_neg. f_equal. ring. }
  split; [|exact R1]. rewrite root_add by exact Hs. rewrite <- R1. unfold next_w, cmul. cbn [fst snd]. f_equal; ring.
Qed.
(** the transform of a real signal of even length from those of the even and odd samples *)
Definition evens (x : Z -> R) : Z -> C := fun i => (x (2 * i)%Z, 0%R).
Definition odds (x : Z -> R) : Z -> C := fun i => (x (2 * i + 1)%Z, 0%R).
Lemma even_odd h s x k : 1 <= h -> s = 1 \/ s = -1 -> dft (2 * h) s (real_values x) k = cadd (dft h s (evens x) k) (cmul (root (2 * h) s k) (dft h s (odds x) k)).
Proof.
  intros Hh Hs. unfold dft. replace (Z.to_nat (2 * h)) with (2 * Z.to_nat h)%nat by lia. rewrite total_split by lia. cbn [total]. change (Z.of_nat 0) with 0. change (Z.of_nat 1) with 1. change plus with cadd. change (0, 0)%R with c0. change (Z.of_nat 2) with 2.
  rewrite <- total_mul_l. replace (total (Z.to_nat h) (fun j => times (evens x j) (root h s (j * k)))) with (total (Z.to_nat h) (fun j => times (real_values x (0 + 2 * j)) (root (2 * h) s ((0 + 2 * j) * k)))).
  - replace (total (Z.to_nat h) (fun i => cmul (root (2 * h) s k) (times (odds x i) (root h s (i * k))))) with (total (Z.to_nat h) (fun j => times (real_values x (1 + 2 * j)) (root (2 * h) s ((1 + 2 * j) * k)))); [ring|].
    apply total_ext. intros j _. unfold real_values, odds. replace ((1 + 2 * j) * k) with (k + 2 * (j * k)) by ring. rewrite root_add, root_scale by (assumption || lia). replace (1 + 2 * j) with (2 * j + 1) by ring. rewrite !times_cmul. ring.
  - apply total_ext. intros j _. unfold real_values, evens. replace ((0 + 2 * j) * k) with (2 * (j * k)) by ring. rewrite root_scale by lia. replace (0 + 2 * j) with (2 * j) by ring. reflexivity.
Qed.
Lemma dft_real_sym h s x k : 1 <= h -> s = 1 \/ s = -1 -> (forall i, snd (x i) = 0%R) -> dft h s x (h - k) = conj (dft h s x k).
Proof.
  intros Hh Hs Hx. unfold dft. rewrite <- total_conj. apply total_ext. intros i Hi. rewrite times_cmul, conj_cmul. f_equal; [specialize (Hx i); destruct (x i) as [u v]; cbn in Hx; unfold conj; cbn; rewrite Hx; f_equal; ring|].
  replace (i * (h - k)) with (h * i + - (i * k)) by ring. rewrite root_add, root_mult, root_opp by (assumption || lia). ring.
Qed.
Lemma dft_lin n s (a b : C) x y k : dft n s (fun i => cadd (cmul a (x i)) (cmul b (y i))) k = cadd (cmul a (dft n s x k)) (cmul b (dft n s y k)).
Proof. unfold dft. rewrite <- !total_mul_l, <- total_add. apply total_ext. intros i _. rewrite times_cmul. ring. Qed.
Lemma dft_ext n s x y k : (forall i, 0 <= i < n -> x i = y i) -> dft n s x k = dft n s y k.
Proof. intros H. unfold dft. apply total_ext. intros i Hi. rewrite H by lia. reflexivity. Qed.

(** ** C59 *)
(** Real signal to spectrum: the values 0..n/2 of the discrete Fourier transform; nothing else is written. *)
Theorem C59_forward n sign x c : Z.even n = true -> supported (n / 2) -> sign = 1 \/ sign = -1 ->
  forall k, pfarc sign n x c k = if (0 <=? k) && (k <=? n / 2) then dft n sign (real_values x) k else c k.
Proof.
  intros Ev Su Hs k. set (h := n / 2) in *. assert (En : n = 2 * h) by (unfold h; apply Z.even_spec in Ev as [m ->]; rewrite (Z.mul_comm 2 m), Z.div_mul; lia).
  assert (Hh : 1 <= h) by (pose proof (supported_range h Su); lia).
  unfold pfarc. fold h. set (z1 := fold_left (fun z k => upd z k _) (range 0 h) c).
  assert (E1 : forall x0, z1 x0 = if (0 <=? x0) && (x0 <? h) then (/ 2 * x (2 * x0)%Z, / 2 * x (2 * x0 + 1)%Z)%R else c x0) by (intros; unfold z1; apply (fold_write (fun k => (/ 2 * x (2 * k)%Z, / 2 * x (2 * k + 1)%Z)%R))). clearbody z1.
  set (z2 := pfacc sign h z1). set (E := dft h sign (evens x)). set (O := dft h sign (odds x)).
  assert (E2 : forall j, z2 j = if (0 <=? j) && (j <? h) then cadd (cmul (/ 2, 0)%R (E j)) (cmul (0, / 2)%R (O j)) else c j).
  { intros j. unfold z2. rewrite C31_prime_factor by assumption. rewrite E1. destruct ((0 <=? j) && (j <? h)); [|reflexivity]. unfold E, O. rewrite <- dft_lin. apply dft_ext. intros i Hi. rewrite E1. replace ((0 <=? i) && (i <? h)) with true by lia. unfold evens, odds, cadd, cmul. cbn [fst snd]. f_equal; ring. }
  clearbody z2.
  assert (Es : forall j, E (h - j) = conj (E j)) by (intros; apply dft_real_sym; [lia|exact Hs|reflexivity]).
  assert (Os : forall j, O (h - j) = conj (O j)) by (intros; apply dft_real_sym; [lia|exact Hs|reflexivity]).
  set (X := dft n sign (real_values x)).
  assert (EX : forall j, X j = cadd (E j) (cmul (root n sign j) (O j))) by (intros; unfold X; rewrite En; apply even_odd; assumption).
  assert (E00 : snd (E 0) = 0%R /\ snd (O 0) = 0%R).
  { assert (Z0 : forall y : Z -> C, (forall i, snd (y i) = 0%R) -> snd (dft h sign y 0) = 0%R).
    { intros y Hy. assert (A : dft h sign y h = conj (dft h sign y 0)) by (rewrite <- dft_real_sym by assumption; f_equal; lia). assert (B : dft h sign y h = dft h sign y 0).
      { unfold dft. apply total_ext. intros i _. rewrite Z.mul_0_r, (Z.mul_comm i h), root_mult, root_0 by (assumption || lia). reflexivity. }
      rewrite B in A. apply (f_equal snd) in A. unfold conj in A. cbn [snd] in A. lra. }
    split; apply Z0; reflexivity. }
  set (z3 := upd (upd z2 h _) 0 _).
  assert (E3 : z3 h = X h /\ z3 0 = X 0 /\ forall j, j <> 0 -> j <> h -> z3 j = z2 j).
  { destruct E00 as [E00 O00]. unfold z3. rewrite !EX. rewrite root_0. rewrite (root_half sign n h) by (try assumption; lia).
    assert (Eh : E h = conj (E 0)) by (rewrite <- Es; f_equal; lia). assert (Oh : O h = conj (O 0)) by (rewrite <- Os; f_equal; lia). rewrite Eh, Oh. rewrite !E2. replace ((0 <=? 0) && (0 <? h)) with true by lia. destruct (E 0) as [er ei], (O 0) as [or oi]. cbn [snd] in E00, O00. subst ei oi.
    rewrite !upd_eq. rewrite !Z.eqb_refl. destruct (Z.eqb_spec h 0); [lia|]. unfold cadd, cmul, copp, conj, c1. cbn [fst snd]. split; [f_equal; field|]. split; [f_equal; field|]. intros j N0 Nh. rewrite !upd_eq. destruct (Z.eqb_spec j 0); [contradiction|]. destruct (Z.eqb_spec j h); [contradiction|reflexivity]. }
  clearbody z3. destruct E3 as (E3h & E30 & E3).
  set (theta := if sign <? 0 then _ else _). assert (Et : theta = (IZR sign * (2 * PI / IZR n))%R) by (unfold theta; destruct Hs as [-> | ->]; cbn [Z.ltb Z.compare]; ring).
  assert (Hn : n <> 0) by lia.
  pose proof (fun k => proj1 (recurrence n sign k theta Hn Hs Et)) as W1. pose proof (proj2 (recurrence n sign 0 theta Hn Hs Et)) as W2. cbv zeta in W1, W2. rewrite W2.
  assert (Hh2 : 0 <= h / 2 /\ 2 * (h / 2) <= h) by (split; [apply Z.div_pos; lia|pose proof (Z.div_mod h 2 ltac:(lia)); pose proof (Z.mod_pos_bound h 2 ltac:(lia)); lia]).
  assert (D : forall j, 1 <= j < h -> z3 j = cadd (cmul (/ 2, 0)%R (E j)) (cmul (0, / 2)%R (O j))). { intros j Hj. rewrite E3, E2 by lia. replace ((0 <=? j) && (j <? h)) with true by lia. reflexivity. }
  destruct (pair_loop h
    (fun a b w => (fst a + fst b + (snd w * (fst a - fst b) + fst w * (snd a + snd b)), snd a - snd b + (snd w * (snd a + snd b) - fst w * (fst a - fst b)))%R)
    (fun a b w => (fst a + fst b - (snd w * (fst a - fst b) + fst w * (snd a + snd b)), snd w * (snd a + snd b) - fst w * (fst a - fst b) - (snd a - snd b))%R)
    _ _ (root n sign) X z3 (fun k _ => W1 k)) with (K := h / 2) as [_ L]; [| |lia|lia|].
  1,2: intros j Hj1 Hj2; rewrite !D by lia; rewrite Es, Os.
  - rewrite EX. destruct (E j) as [er ei], (O j) as [or oi], (root n sign j) as [wr wi]. unfold cadd, cmul, conj. cbn [fst snd]. f_equal; field.
  - rewrite EX, Es, Os. replace (root n sign (h - j)) with (copp (conj (root n sign j))).
    + destruct (E j) as [er ei], (O j) as [or oi], (root n sign j) as [wr wi]. unfold cadd, cmul, conj, copp. cbn [fst snd]. f_equal; field.
    + rewrite <- root_opp by exact Hs. replace (h - j) with (h + - j) by ring. rewrite root_add, (root_half sign n h) by (try assumption; lia). ring.
  - specialize (L k). change (fold_left (pair_step h _ _ _ _) ?l ?a) with (fold_left (fun s k => rc_step h (-2 * sin (/ 2 * theta) * sin (/ 2 * theta))%R (sin theta) s k) l a) in L. rewrite L. clear L.
    destruct ((1 <=? k) && (k <=? h / 2) || (h - h / 2 <=? k) && (k <? h)) eqn:B.
    + replace ((0 <=? k) && (k <=? h)) with true by lia. reflexivity.
    + destruct (Z.eq_dec k 0) as [-> |N0]; [rewrite E30; replace ((0 <=? 0) && (0 <=? h)) with true by lia; reflexivity|]. destruct (Z.eq_dec k h) as [-> |Nh]; [rewrite E3h; replace ((0 <=? h) && (h <=? h)) with true by lia; reflexivity|].
      rewrite E3, E2 by assumption. pose proof (Z.div_mod h 2 ltac:(lia)). pose proof (Z.mod_pos_bound h 2 ltac:(lia)). replace ((0 <=? k) && (k <? h)) with false by lia. replace ((0 <=? k) && (k <=? h)) with false by lia. reflexivity.
Qed.
Print Assumptions C59_forward.

(** *** back *)
Lemma hermitian_dft_real n s c i : 1 <= n -> s = 1 \/ s = -1 -> snd (dft n s (hermitian n c) i) = 0%R.
Proof.
  intros Hn Hs. rewrite hermitian_sum by assumption. unfold middle. destruct (Z.odd n) eqn:O; [unfold cadd, conj, c0; cbn [fst snd]; ring|].
  assert (Z0 : snd (root n s (n / 2 * i)) = 0%R).
  { rewrite root_angle by lia. cbn [snd]. pose proof (Zdiv2_odd_eqn n) as E. rewrite O in E. rewrite <- Z.div2_div. set (h := Z.div2 n) in *. replace (2 * PI / IZR n * IZR (h * i))%R with (IZR i * PI)%R; [rewrite (sin_eq_0_1 (IZR i * PI)); [ring|now exists i]|].
    rewrite mult_IZR. rewrite E. replace (IZR (2 * h + 0)) with (2 * IZR h)%R by (rewrite <- mult_IZR; f_equal; lia). field. apply not_0_IZR. lia. }
  unfold cadd, cmul, conj. cbn [fst snd]. rewrite Z0. ring.
Qed.
Lemma halves h s H i : 1 <= h -> s = 1 \/ s = -1 ->
  dft (2 * h) s H (2 * i) = dft h s (fun k => cadd (H k) (H (k + h))) i /\
  dft (2 * h) s H (2 * i + 1) = dft h s (fun k => cmul (csub (H k) (H (k + h))) (root (2 * h) s k)) i.
Proof.
  intros Hh Hs. unfold dft. replace (Z.to_nat (2 * h)) with (Z.to_nat h + Z.to_nat h)%nat by lia. rewrite !total_app, <- !total_add. rewrite Z2Nat.id by lia. split; apply total_ext; intros k _; rewrite !times_cmul.
  - replace (k * (2 * i)) with (2 * (k * i)) by ring. replace ((h + k) * (2 * i)) with (2 * h * i + 2 * (k * i)) by ring. rewrite root_add, root_mult, root_scale by (assumption || lia). rewrite (Z.add_comm h k). ring.
  - replace (k * (2 * i + 1)) with (k + 2 * (k * i)) by ring. replace ((h + k) * (2 * i + 1)) with (2 * h * i + (h + (k + 2 * (k * i)))) by ring. rewrite !root_add, root_mult, root_scale, (root_half s (2 * h) h) by (assumption || lia). rewrite (Z.add_comm h k). ring.
Qed.
(** Spectrum to real signal: the transform of the hermitian spectrum given by the values 0..n/2. *)
Theorem C59_back n sign c r : Z.even n = true -> supported (n / 2) -> sign = 1 \/ sign = -1 ->
  forall i, (pfacr sign n c r i, 0%R) = if (0 <=? i) && (i <? n) then dft n sign (hermitian n c) i else (r i, 0%R).
Proof.
  intros Ev Su Hs i. unfold pfacr. destruct ((0 <=? i) && (i <? n)) eqn:Bi; [|reflexivity].
  unfold pfacr_pairs. set (h := n / 2) in *. assert (En : n = 2 * h) by (unfold h; apply Z.even_spec in Ev as [m ->]; rewrite (Z.mul_comm 2 m), Z.div_mul; lia).
  assert (Hh : 1 <= h) by (pose proof (supported_range h Su); lia). assert (Hn : n <> 0) by lia.
  set (theta := if 0 <? sign then _ else _). assert (Et : theta = (IZR (- sign) * (2 * PI / IZR n))%R) by (unfold theta; destruct Hs as [-> | ->]; cbn [Z.ltb Z.compare Z.opp]; ring).
  assert (Hs' : - sign = 1 \/ - sign = -1) by lia.
  pose proof (fun k => proj1 (recurrence n (- sign) k theta Hn Hs' Et)) as W1. pose proof (proj2 (recurrence n (- sign) 0 theta Hn Hs' Et)) as W2. cbv zeta in W1, W2. rewrite W2.
  set (z0 := upd c 0 _). set (H := hermitian n c). set (Y := fun k => cadd (cadd (H k) (H (k + h))) (cmul (0, 1)%R (cmul (csub (H k) (H (k + h))) (root n sign k)))).
  assert (Hk : forall k, 1 <= k < h -> H k = c k /\ H (k + h) = conj (c (h - k))).
  { intros k Hk. unfold H, hermitian. split.
    - destruct (Z.eqb_spec k 0); [lia|]. destruct (Z.ltb_spec (2 * k) n); [reflexivity|lia].
    - destruct (Z.eqb_spec (k + h) 0); [lia|]. destruct (Z.ltb_spec (2 * (k + h)) n); [lia|]. destruct (Z.eqb_spec (2 * (k + h)) n); [lia|]. replace (n - (k + h)) with (h - k) by lia. reflexivity. }
  assert (D : forall j, 1 <= j < h -> z0 j = c j) by (intros j Hj; unfold z0; rewrite upd_eq; destruct (Z.eqb_spec j 0); [lia|reflexivity]).
  assert (D0 : z0 0 = Y 0).
  { unfold z0, Y. rewrite upd_eq, Z.eqb_refl, root_0. assert (H 0 = (fst (c 0), 0%R)) as -> by reflexivity. assert (H (0 + h) = (fst (c h), 0%R)) as ->.
    { unfold H, hermitian. destruct (Z.eqb_spec (0 + h) 0); [lia|]. destruct (Z.ltb_spec (2 * (0 + h)) n); [lia|]. destruct (Z.eqb_spec (2 * (0 + h)) n); [reflexivity|lia]. }
    unfold cadd, csub, cmul, c1. cbn [fst snd]. f_equal; ring. }
  assert (Hh2 : 0 <= h / 2 /\ 2 * (h / 2) <= h) by (split; [apply Z.div_pos; lia|pose proof (Z.div_mod h 2 ltac:(lia)); pose proof (Z.mod_pos_bound h 2 ltac:(lia)); lia]).
  destruct (pair_loop h
    (fun a b w => (fst a + fst b + (snd w * (fst a - fst b) - fst w * (snd a + snd b)), snd a - snd b + (snd w * (snd a + snd b) + fst w * (fst a - fst b)))%R)
    (fun a b w => (fst a + fst b - (snd w * (fst a - fst b) - fst w * (snd a + snd b)), snd w * (snd a + snd b) + fst w * (fst a - fst b) - (snd a - snd b))%R)
    _ _ (root n (- sign)) Y z0 (fun k _ => W1 k)) with (K := h / 2) as [_ L]; [| |lia|lia|].
  1,2: intros j Hj1 Hj2; rewrite !D by lia; unfold Y; rewrite root_sign.
  - destruct (Hk j) as [-> ->]; [lia|]. destruct (c j) as [ar ai], (c (h - j)) as [br bi], (root n sign j) as [wr wi]. unfold cadd, csub, cmul, conj. cbn [fst snd]. f_equal; ring.
  - destruct (Hk (h - j)) as [-> ->]; [lia|]. replace (h - (h - j)) with j by ring. replace (root n sign (h - j)) with (copp (conj (root n sign j))).
    + destruct (c j) as [ar ai], (c (h - j)) as [br bi], (root n sign j) as [wr wi]. unfold cadd, csub, cmul, conj, copp. cbn [fst snd]. f_equal; ring.
    + rewrite <- root_opp by exact Hs. replace (h - j) with (h + - j) by ring. rewrite root_add, (root_half sign n h) by (try assumption; lia). ring.
  - change (fold_left (pair_step h _ _ _ _) ?l ?a) with (fold_left (fun s k => cr_step h (-2 * sin (/ 2 * theta) * sin (/ 2 * theta))%R (sin theta) s k) l a) in L.
    set (z1 := fst (fold_left (fun s k => cr_step h _ _ s k) _ _)) in *.
    assert (L' : forall k, 0 <= k < h -> z1 k = Y k).
    { intros k Hkh. rewrite L. pose proof (Z.div_mod h 2 ltac:(lia)). pose proof (Z.mod_pos_bound h 2 ltac:(lia)). destruct (Z.eq_dec k 0) as [-> |N0]; [replace ((1 <=? 0) && (0 <=? h / 2) || (h - h / 2 <=? 0) && (0 <? h)) with false by lia; exact D0|]. replace ((1 <=? k) && (k <=? h / 2) || (h - h / 2 <=? k) && (k <? h)) with true by lia. reflexivity. }
    clearbody z1. clear L.
    assert (P : forall l, 0 <= l < h -> pfacc sign h z1 l = cadd (dft n sign H (2 * l)) (cmul (0, 1)%R (dft n sign H (2 * l + 1)))).
    { intros l Hl. rewrite C31_prime_factor by assumption. replace ((0 <=? l) && (l <? h)) with true by lia. rewrite (dft_ext _ _ _ _ _ L'). rewrite En. destruct (halves h sign H l Hh Hs) as [-> ->]. rewrite <- En.
      pose proof (dft_lin h sign c1 (0, 1)%R (fun k => cadd (H k) (H (k + h))) (fun k => cmul (csub (H k) (H (k + h))) (root n sign k)) l) as Li.
      rewrite (dft_ext _ _ (fun i => cadd (cmul c1 (cadd (H i) (H (i + h)))) (cmul (0, 1)%R (cmul (csub (H i) (H (i + h))) (root n sign i)))) Y) in Li by (intros; unfold Y; ring). rewrite Li. ring. }
    pose proof (Zdiv2_odd_eqn i) as Ei. rewrite <- Z.div2_div. assert (0 <= Z.div2 i < h) by (destruct (Z.odd i); lia). rewrite P by assumption.
    assert (Ze : forall k, snd (dft n sign H k) = 0%R) by (intros; apply hermitian_dft_real; [lia|assumption]).
    pose proof (Ze (2 * Z.div2 i)) as Z1. pose proof (Ze (2 * Z.div2 i + 1)) as Z2. pose proof (Ze i) as Z3.
    replace (Z.even i) with (negb (Z.odd i)) by apply Z.negb_odd. destruct (Z.odd i); cbn [negb].
    + rewrite <- Ei. destruct (dft n sign H (2 * Z.div2 i)) as [a b], (dft n sign H i) as [d e]. cbn [snd] in Z1, Z2, Z3. rewrite ?Z1, ?Z2, Z3. unfold cadd, cmul. cbn [fst snd]. f_equal; ring.
    + rewrite Z.add_0_r in Ei. rewrite <- Ei in Z2 |- *. destruct (dft n sign H (i + 1)) as [a b], (dft n sign H i) as [d e]. cbn [snd] in Z1, Z2, Z3. rewrite ?Z1, ?Z2, Z3. unfold cadd, cmul. cbn [fst snd]. f_equal; ring.
Qed.
Print Assumptions C59_back.

(** Forward and back: n times the signal. *)
Theorem C59_round_trip n sign x c r : Z.even n = true -> supported (n / 2) -> sign = 1 \/ sign = -1 ->
  forall i, 0 <= i < n -> pfacr (- sign) n (pfarc sign n x c) r i = (IZR n * x i)%R.
Proof.
  intros Ev Su Hs i Hi. assert (Hn : 1 <= n) by (pose proof (supported_range _ Su); pose proof (Z.div_mod n 2 ltac:(lia)); pose proof (Z.mod_pos_bound n 2 ltac:(lia)); lia).
  pose proof (C59_back n (- sign) (pfarc sign n x c) r Ev Su ltac:(lia) i) as E. replace ((0 <=? i) && (i <? n)) with true in E by lia. apply (f_equal fst) in E. cbn [fst] in E. rewrite E.
  replace (dft n (- sign) (hermitian n (pfarc sign n x c)) i) with (dft n (- sign) (dft n sign (real_values x)) i); [rewrite dft_inverse by assumption; reflexivity|].
  apply dft_ext. intros k Hk. rewrite <- hermitian_real by assumption. pose proof (Z.div_mod n 2 ltac:(lia)). pose proof (Z.mod_pos_bound n 2 ltac:(lia)).
  assert (A : forall j, 0 <= j -> 2 * j <= n -> pfarc sign n x c j = dft n sign (real_values x) j). { intros j Hj Hj2. rewrite C59_forward by assumption. replace ((0 <=? j) && (j <=? n / 2)) with true by lia. reflexivity. }
  unfold hermitian. destruct (Z.eqb_spec k 0); [rewrite A by lia; reflexivity|]. destruct (Z.ltb_spec (2 * k) n); [rewrite A by lia; reflexivity|]. destruct (Z.eqb_spec (2 * k) n); rewrite A by lia; reflexivity.
Qed.
Print Assumptions C59_round_trip.
Example C59_nonvacuous : Z.even 24 = true /\ supported (24 / 2) /\ Z.even 2 = true /\ supported (2 / 2) /\ Z.even 1441440 = true /\ supported (1441440 / 2).
Proof. repeat apply Logic.conj; try (vm_compute; reflexivity); apply supported_table; vm_compute; tauto. Qed.
