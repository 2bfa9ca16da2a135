(** Properties of the transforms of a gather (C34). *)
From Coq Require Import ZArith Reals List Lia Lra Bool.
From Verif Require Import FdKernels FdProofs FdOutputProofs Marchenko MarchenkoProofs KissFft FftSpec FftAux FftInverse KissFftProofs LibFft PropertiesDft FftLayout.
Import ListNotations.
Local Open Scope Z_scope.

(** ** proofs *)
Lemma nested {M} (f : M -> Z -> Z -> M) B A : forall m, fold_left (fun m i => fold_left (fun m j => f m i j) B m) A m = fold_left (fun m p => f m (fst p) (snd p)) (list_prod A B) m.
Proof.
  induction A as [|a A IH]; intros m; cbn [fold_left list_prod]; [reflexivity|]. rewrite fold_left_app, <- IH. f_equal. clear.
  revert m. induction B as [|b B IH]; intros m; cbn [fold_left map]; [reflexivity|]. apply IH.
Qed.
Lemma NoDup_map_in {X Y} (f : X -> Y) l : (forall a b, In a l -> In b l -> f a = f b -> a = b) -> NoDup l -> NoDup (map f l).
Proof.
  induction l as [|a l IH]; intros Inj N; cbn [map]; [constructor|]. inversion N as [|? ? N1 N2]; subst. constructor.
  - intros I. apply in_map_iff in I as (b & E & I). apply N1. rewrite (Inj a b); auto; [now left|now right].
  - apply IH; [|exact N2]. intros; apply Inj; auto; now right.
Qed.
Lemma grid {V} (addr : Z -> Z -> Z) (g : Z -> Z -> V -> V) A B : NoDup A -> NoDup B ->
  (forall i j i' j', In i A -> In j B -> In i' A -> In j' B -> addr i j = addr i' j' -> i = i' /\ j = j') ->
  forall m, let F := fold_left (fun m i => fold_left (fun m j => upd m (addr i j) (g i j (m (addr i j)))) B m) A m in
  (forall i j, In i A -> In j B -> F (addr i j) = g i j (m (addr i j))) /\ (forall x, (forall i j, In i A -> In j B -> x <> addr i j) -> F x = m x).
Proof.
  intros NA NB Inj m F. assert (E : F = fold_left (fun m p => upd m (addr (fst p) (snd p)) (g (fst p) (snd p) (m (addr (fst p) (snd p))))) (list_prod A B) m) by (unfold F; apply (nested (fun m i j => upd m (addr i j) (g i j (m (addr i j)))))).
  split.
  - intros i j Hi Hj. rewrite E. apply (fold_upd_hit (fun p => addr (fst p) (snd p)) (fun p v => g (fst p) (snd p) v) (list_prod A B) m (i, j)); [|now apply in_prod].
    apply NoDup_map_in; [|now apply list_prod_NoDup]. intros [i1 j1] [i2 j2] I1 I2 E12. apply in_prod_iff in I1, I2. cbn [fst snd] in E12. destruct (Inj i1 j1 i2 j2) as [-> ->]; tauto.
  - intros x Hx. rewrite E. apply (fold_upd_miss (fun p => addr (fst p) (snd p)) (fun p v => g (fst p) (snd p) v)). intros I. apply in_map_iff in I as ([i j] & E' & I). apply in_prod_iff in I. cbn [fst snd] in E'. apply (Hx i j); [tauto|tauto|now rewrite E'].
Qed.
Lemma fold_map {M X Y} (f : M -> Y -> M) (h : X -> Y) l : forall m, fold_left f (map h l) m = fold_left (fun m x => f m (h x)) l m.
Proof. induction l as [|a l IH]; intros m; cbn [map fold_left]; auto. Qed.
Lemma half_length n : (n + 2) / 2 = n / 2 + 1.
Proof. replace (n + 2) with (n + 1 * 2) by ring. apply Z.div_add. lia. Qed.
Lemma half_bound n : 1 <= n -> 0 <= n / 2.
Proof. intros H. apply Z.div_pos; lia. Qed.
Lemma row_inj ld n i j i' j' : 0 <= j < n -> 0 <= j' < n -> n <= ld -> i * ld + j = i' * ld + j' -> i = i' /\ j = j'.
Proof. intros. assert (i = i') by nia. subst. lia. Qed.

Definition trace (rdata : Z -> R) (ld i : Z) : Z -> R := fun t => rdata (i * ld + t).
Lemma rcmfft_ok rdata cdata n1 n2 ldr ldc sign : n1 / 2 + 1 <= ldc -> forall i k, 0 <= i < n2 -> 0 <= k <= n1 / 2 ->
  rcmfft rdata cdata n1 n2 ldr ldc sign (i * ldc + k) = dft n1 sign (real_values (trace rdata ldr i)) k.
Proof.
  intros L i k Hi Hk. destruct (grid (fun i k => i * ldc + k) (fun i k _ => dft n1 sign (real_values (trace rdata ldr i)) k) (range 0 n2) (range 0 (n1 / 2 + 1)) (range_NoDup _ _) (range_NoDup _ _)) with (m := cdata) as [G _].
  - intros a b a' b' Ha Hb Ha' Hb' E. rewrite in_range in *. apply (row_inj ldc (n1 / 2 + 1)); lia.
  - apply G; apply in_range; lia.
Qed.
Lemma crmfft_ok cdata rdata n1 n2 ldc ldr sign : n1 <= ldr -> 
  (forall i t, 0 <= i < n2 -> 0 <= t < n1 -> crmfft cdata rdata n1 n2 ldc ldr sign (i * ldr + t) = fst (dft n1 sign (hermitian n1 (fun k => cdata (i * ldc + k))) t)) /\
  (forall x, (forall i t, 0 <= i < n2 -> 0 <= t < n1 -> x <> i * ldr + t) -> crmfft cdata rdata n1 n2 ldc ldr sign x = rdata x).
Proof.
  intros L. destruct (grid (fun i k => i * ldr + k) (fun i t _ => fst (dft n1 sign (hermitian n1 (fun k => cdata (i * ldc + k))) t)) (range 0 n2) (range 0 n1) (range_NoDup _ _) (range_NoDup _ _)) with (m := rdata) as [G1 G2].
  - intros a b a' b' Ha Hb Ha' Hb' E. rewrite in_range in *. apply (row_inj ldr n1); lia.
  - split; [intros i t Hi Ht; apply G1; apply in_range; lia|]. intros x Hx. apply G2. intros i j Hi Hj. apply in_range in Hi, Hj. now apply Hx.
Qed.
Lemma ccmfft_ok cdata n1 n2 ld1 sign : n1 <= ld1 -> 0 <= n2 ->
  (forall i k, 0 <= i < n2 -> 0 <= k < n1 -> ccmfft cdata n1 n2 ld1 sign (i * ld1 + k) = dft n1 sign (fun t => cdata (i * ld1 + t)) k) /\
  (forall x, (forall i k, 0 <= i < n2 -> 0 <= k < n1 -> x <> i * ld1 + k) -> ccmfft cdata n1 n2 ld1 sign x = cdata x).
Proof.
  intros L Hn2. unfold ccmfft. set (body := fun c i => _).
  assert (B : forall c i, (forall k, 0 <= k < n1 -> body c i (i * ld1 + k) = dft n1 sign (fun t => c (i * ld1 + t)) k) /\ (forall x, (forall k, 0 <= k < n1 -> x <> i * ld1 + k) -> body c i x = c x)).
  { intros c i. unfold body. split.
    - intros k Hk. apply (fold_upd_hit (fun k => i * ld1 + k) (fun k _ => dft n1 sign (fun t => c (i * ld1 + t)) k)); [|apply in_range; lia]. apply NoDup_map_in; [intros; lia|apply range_NoDup].
    - intros x Hx. apply (fold_upd_miss (fun k => i * ld1 + k) (fun k _ => dft n1 sign (fun t => c (i * ld1 + t)) k)). intros I. apply in_map_iff in I as (k & E & I). apply in_range in I. apply (Hx k); lia. }
  clearbody body.
  assert (K : forall m, 0 <= m -> m <= n2 -> let r := fold_left body (range 0 m) cdata in
    (forall i k, 0 <= i < m -> 0 <= k < n1 -> r (i * ld1 + k) = dft n1 sign (fun t => cdata (i * ld1 + t)) k) /\
    (forall x, (forall i k, 0 <= i < m -> 0 <= k < n1 -> x <> i * ld1 + k) -> r x = cdata x)).
  { refine (natlike_ind _ _ _).
    - intros _. rewrite range_nil by lia. cbn [fold_left]. split; [lia|auto].
    - intros m Hm IH Hm2. unfold Z.succ in *. cbv zeta in *. rewrite range_snoc, fold_left_app by lia. cbn [fold_left]. set (r := fold_left body (range 0 m) cdata) in *. destruct (IH ltac:(lia)) as [I1 I2]. destruct (B r m) as [B1 B2]. split.
      + intros i k Hi Hk. destruct (Z.eq_dec i m) as [-> |N].
        * rewrite B1 by exact Hk. unfold dft. apply total_ext. intros t Ht. rewrite I2; [reflexivity|]. intros i' k' Hi' Hk' E. destruct (row_inj ld1 n1 m t i' k'); lia.
        * rewrite B2; [apply I1; lia|]. intros k' Hk' E. destruct (row_inj ld1 n1 i k m k'); lia.
      + intros x Hx. rewrite B2; [apply I2; intros; apply Hx; lia|intros; apply Hx; lia]. }
  apply (K n2); lia.
Qed.
Lemma scale_ok (r : Z -> R) (scl : R) nx ldr : 
  (forall i t, 0 <= i < nx -> 0 <= t < ldr -> fold_left (fun r i => fold_left (fun r j => upd r (i * ldr + j) (r (i * ldr + j)%Z * scl)%R) (range 0 ldr) r) (range 0 nx) r (i * ldr + t) = (r (i * ldr + t)%Z * scl)%R) /\
  (forall x, (forall i t, 0 <= i < nx -> 0 <= t < ldr -> x <> i * ldr + t) -> fold_left (fun r i => fold_left (fun r j => upd r (i * ldr + j) (r (i * ldr + j)%Z * scl)%R) (range 0 ldr) r) (range 0 nx) r x = r x).
Proof.
  destruct (grid (fun i k => i * ldr + k) (fun i t v => (v * scl)%R) (range 0 nx) (range 0 ldr) (range_NoDup _ _) (range_NoDup _ _)) with (m := r) as [G1 G2].
  - intros a b a' b' Ha Hb Ha' Hb' E. rewrite in_range in *. apply (row_inj ldr ldr); lia.
  - split; [intros; apply G1; apply in_range; lia|]. intros x Hx. apply G2. intros i j Hi Hj. apply in_range in Hi, Hj. now apply Hx.
Qed.
Lemma dft_ext n s x y k : (forall i, 0 <= i < n -> x i = y i) -> dft n s x k = dft n s y k.
Proof. intros H. unfold dft. apply total_ext. intros i Hi. rewrite H by lia. reflexivity. Qed.
Lemma hermitian_ext n c c' k : 1 <= n -> 0 <= k < n -> (forall j, 0 <= j <= n / 2 -> c j = c' j) -> hermitian n c k = hermitian n c' k.
Proof.
  intros Hn Hk H. pose proof (Z.div_mod n 2 ltac:(lia)). pose proof (Z.mod_pos_bound n 2 ltac:(lia)). unfold hermitian. destruct (Z.eqb_spec k 0); [rewrite H by lia; reflexivity|]. destruct (Z.ltb_spec (2 * k) n); [apply H; lia|]. destruct (Z.eqb_spec (2 * k) n); rewrite H by lia; reflexivity.
Qed.

(** ** C34 *)
(** traces [nx][nt] to frequency slices [nf][nx]: element (w, x) is the transform of trace x at frequency w *)
Theorem C34_xt2wx junk rdata cdata nt nx ldr ldc : 1 <= nt -> 0 <= nx <= ldc ->
  (forall x w, 0 <= x < nx -> 0 <= w <= nt / 2 -> xt2wx junk rdata cdata nt nx ldr ldc (w * ldc + x) = dft nt (-1) (real_values (fun t => rdata (x * ldr + t))) w) /\
  (forall a, (forall x w, 0 <= x < nx -> 0 <= w <= nt / 2 -> a <> w * ldc + x) -> xt2wx junk rdata cdata nt nx ldr ldc a = cdata a).
Proof.
  intros Hnt Hnx. unfold xt2wx. rewrite half_length. set (cdum := rcmfft rdata junk nt nx ldr (nt / 2 + 1) (-1)).
  destruct (grid (fun i j => j * ldc + i) (fun i j _ => cdum (i * (nt / 2 + 1) + j)) (range 0 nx) (range 0 (nt / 2 + 1)) (range_NoDup _ _) (range_NoDup _ _)) with (m := cdata) as [G1 G2].
  - intros a b a' b' Ha Hb Ha' Hb' E. rewrite in_range in *. destruct (row_inj ldc nx b a b' a'); lia.
  - split.
    + intros x w Hx Hw. rewrite (G1 x w) by (apply in_range; lia). unfold cdum. rewrite rcmfft_ok by lia. reflexivity.
    + intros a Ha. apply G2. intros i j Hi Hj. apply in_range in Hi, Hj. apply Ha; lia.
Qed.
Print Assumptions C34_xt2wx.
(** and back, with the scale factor 1/nt; the columns nt..ldr-1 are scaled too *)
Theorem C34_wx2xt junk cdata rdata nt nx ldc ldr : 1 <= nt -> 0 <= nx -> nt <= ldr ->
  (forall x t, 0 <= x < nx -> 0 <= t < nt -> wx2xt junk cdata rdata nt nx ldc ldr (x * ldr + t) = (/ IZR nt * fst (dft nt 1 (hermitian nt (fun w => cdata (w * ldc + x)%Z)) t))%R) /\
  (forall x t, 0 <= x < nx -> nt <= t < ldr -> wx2xt junk cdata rdata nt nx ldc ldr (x * ldr + t) = (/ IZR nt * rdata (x * ldr + t)%Z)%R) /\
  (forall a, (forall x t, 0 <= x < nx -> 0 <= t < ldr -> a <> x * ldr + t) -> wx2xt junk cdata rdata nt nx ldc ldr a = rdata a).
Proof.
  intros Hnt Hnx Hld. unfold wx2xt. rewrite half_length. set (cdum := fold_left _ (range 0 nx) junk).
  assert (D : forall i j, 0 <= i < nx -> 0 <= j <= nt / 2 -> cdum (i * (nt / 2 + 1) + j) = cdata (j * ldc + i)).
  { intros i j Hi Hj. destruct (grid (fun i j => i * (nt / 2 + 1) + j) (fun i j _ => cdata (j * ldc + i)) (range 0 nx) (range 0 (nt / 2 + 1)) (range_NoDup _ _) (range_NoDup _ _)) with (m := junk) as [G1 _].
    - intros a b a' b' Ha Hb Ha' Hb' E. rewrite in_range in *. apply (row_inj (nt / 2 + 1) (nt / 2 + 1)); lia.
    - apply (G1 i j); apply in_range; lia. }
  clearbody cdum. set (r1 := crmfft cdum rdata nt nx (nt / 2 + 1) ldr 1). destruct (crmfft_ok cdum rdata nt nx (nt / 2 + 1) ldr 1 Hld) as [C1 C2]. fold r1 in C1, C2. clearbody r1.
  destruct (scale_ok r1 (1 / IZR nt) nx ldr) as [S1 S2]. split; [|split].
  - intros x t Hx Ht. rewrite S1, C1 by lia. replace (dft nt 1 (hermitian nt (fun k => cdum (x * (nt / 2 + 1) + k))) t) with (dft nt 1 (hermitian nt (fun w => cdata (w * ldc + x))) t); [unfold Rdiv; ring|].
    apply dft_ext. intros i Hi. apply hermitian_ext; [lia|lia|]. intros j Hj. symmetry. now apply D.
  - intros x t Hx Ht. rewrite S1, C2 by (try lia; intros i t' Hi Ht' E; destruct (row_inj ldr ldr x t i t'); lia). unfold Rdiv. ring.
  - intros a Ha. rewrite S2, C2; [reflexivity| |exact Ha]. intros i t Hi Ht. apply Ha; lia.
Qed.
Print Assumptions C34_wx2xt.
(** round trip: the gather comes back, whatever the leading dimensions *)
Theorem C34_wx_round_trip j1 j2 rdata cdata rdata' nt nx ldr ldc ldr' : 1 <= nt -> 0 <= nx <= ldc -> nt <= ldr' ->
  forall x t, 0 <= x < nx -> 0 <= t < nt -> wx2xt j2 (xt2wx j1 rdata cdata nt nx ldr ldc) rdata' nt nx ldc ldr' (x * ldr' + t) = rdata (x * ldr + t).
Proof.
  intros Hnt Hnx Hld x t Hx Ht. rewrite (proj1 (C34_wx2xt _ _ _ _ _ _ _ Hnt (proj1 Hnx) Hld)) by assumption.
  replace (dft nt 1 (hermitian nt (fun w => xt2wx j1 rdata cdata nt nx ldr ldc (w * ldc + x))) t) with (dft nt (- (-1)) (dft nt (-1) (real_values (fun t => rdata (x * ldr + t)))) t).
  - rewrite dft_inverse by (auto || lia). unfold scaled, real_values. cbn [fst]. field. apply not_0_IZR. lia.
  - apply dft_ext. intros i Hi. rewrite <- hermitian_real by (auto || lia). apply hermitian_ext; [lia|lia|]. intros j Hj. now rewrite (proj1 (C34_xt2wx _ _ _ _ _ _ _ Hnt Hnx)) by lia.
Qed.
Print Assumptions C34_wx_round_trip.

(** *** wavenumbers *)
Lemma total_shift n x f : 0 <= x < n -> total (Z.to_nat n) (fun t => f ((t + x) mod n)) = total (Z.to_nat n) f.
Proof.
  intros Hx. replace (Z.to_nat n) with (Z.to_nat (n - x) + Z.to_nat x)%nat at 1 by lia. replace (Z.to_nat n) with (Z.to_nat x + Z.to_nat (n - x))%nat by lia. rewrite !total_app.
  rewrite (total_ext _ (fun t => f ((t + x) mod n)) (fun i => f (Z.of_nat (Z.to_nat x) + i))).
  - rewrite (total_ext _ (fun i => f ((Z.of_nat (Z.to_nat (n - x)) + i + x) mod n)) f); [ring|]. intros i Hi. f_equal. rewrite Z2Nat.id by lia. replace (n - x + i + x) with (i + 1 * n) by ring. rewrite Z.mod_add, Z.mod_small; lia.
  - intros i Hi. f_equal. rewrite Z2Nat.id by lia. rewrite Z.mod_small; lia.
Qed.
(** the order of the traces in a frequency slice: trace x is at place (x - xorig) mod nx *)
Definition place (nx xorig i : Z) : Z := if i <? xorig then nx - xorig + i else i - xorig.
Lemma place_mod nx xorig i : 0 <= xorig < nx -> 0 <= i < nx -> place nx xorig i = (i - xorig) mod nx.
Proof. intros Hx Hi. unfold place. destruct (Z.ltb_spec i xorig); [|rewrite Z.mod_small; lia]. replace (i - xorig) with (nx - xorig + i + -1 * nx) by ring. rewrite Z.mod_add, Z.mod_small; lia. Qed.
Lemma place_onto nx xorig t : 0 <= xorig < nx -> 0 <= t < nx -> 0 <= (t + xorig) mod nx < nx /\ place nx xorig ((t + xorig) mod nx) = t.
Proof.
  intros Hx Ht. pose proof (Z.mod_pos_bound (t + xorig) nx ltac:(lia)). split; [lia|]. rewrite place_mod by lia. rewrite Zminus_mod_idemp_l. replace (t + xorig - xorig) with t by ring. apply Z.mod_small; lia.
Qed.
Lemma place_range nx xorig i : 0 <= xorig < nx -> 0 <= i < nx -> 0 <= place nx xorig i < nx.
Proof. intros Hx Hi. unfold place. destruct (Z.ltb_spec i xorig); lia. Qed.
Lemma place_inj nx xorig i j : 0 <= xorig < nx -> 0 <= i < nx -> 0 <= j < nx -> place nx xorig i = place nx xorig j -> i = j.
Proof. intros Hx Hi Hj. unfold place. destruct (Z.ltb_spec i xorig), (Z.ltb_spec j xorig); lia. Qed.
(** the sum over the traces with the origin of x at trace xorig *)
Theorem C34_xt2wkx junk rdata cdata nt nx ldr ldc xorig : 1 <= nt -> nx <= ldc -> 0 <= xorig < nx ->
  forall k w, 0 <= k < nx -> 0 <= w <= nt / 2 -> xt2wkx junk rdata cdata nt nx ldr ldc xorig (w * ldc + k) =
    total (Z.to_nat nx) (fun x => times (dft nt (-1) (real_values (fun t => rdata (x * ldr + t))) w) (root nx 1 ((x - xorig) * k))).
Proof.
  intros Hnt Hld Hxo k w Hk Hw. unfold xt2wkx. rewrite half_length. set (cdum := rcmfft rdata junk nt nx ldr (nt / 2 + 1) (-1)).
  set (c1 := fold_left _ (range 0 (nt / 2 + 1)) cdata).
  assert (D : forall i j, 0 <= i < nx -> 0 <= j <= nt / 2 -> c1 (j * ldc + place nx xorig i) = cdum (i * (nt / 2 + 1) + j)).
  { intros i j Hi Hj. unfold c1.
    rewrite (fold_left_ext _ (fun c j => fold_left (fun c i => upd c (j * ldc + place nx xorig i) (cdum (i * (nt / 2 + 1) + j))) (range xorig nx ++ range 0 xorig) c)).
    - destruct (grid (fun j i => j * ldc + place nx xorig i) (fun j i _ => cdum (i * (nt / 2 + 1) + j)) (range 0 (nt / 2 + 1)) (range xorig nx ++ range 0 xorig)) with (m := cdata) as [G1 _].
      + apply range_NoDup.
      + apply NoDup_app_iff; [apply range_NoDup|apply range_NoDup|]. intros x H1 H2. apply in_range in H1, H2. lia.
      + intros a b a' b' Ha Hb Ha' Hb' E. apply in_app_or in Hb, Hb'. rewrite !in_range in *. assert (0 <= b < nx) by lia. assert (0 <= b' < nx) by lia.
        destruct (row_inj ldc nx a (place nx xorig b) a' (place nx xorig b')) as [-> E']; [now apply place_range|now apply place_range|lia|exact E|]. split; [reflexivity|]. now apply (place_inj nx xorig).
      + apply (G1 j i); [apply in_range; lia|]. apply in_or_app. rewrite !in_range. lia.
    - intros c j' _. rewrite fold_left_app. rewrite (fold_left_ext (fun c i => upd c (j' * ldc + (i - xorig)) (cdum (i * (nt / 2 + 1) + j'))) (fun c i => upd c (j' * ldc + place nx xorig i) (cdum (i * (nt / 2 + 1) + j'))) (range xorig nx)).
      + apply fold_left_ext. intros c' i' Hi'. apply in_range in Hi'. unfold place. destruct (Z.ltb_spec i' xorig); [reflexivity|lia].
      + intros c' i' Hi'. apply in_range in Hi'. unfold place. destruct (Z.ltb_spec i' xorig); [lia|reflexivity]. }
  clearbody c1. pose proof (half_bound nt Hnt). rewrite (proj1 (ccmfft_ok c1 nx (nt / 2 + 1) ldc 1 Hld ltac:(lia))) by lia.
  set (f := fun x => times (dft nt (-1) (real_values (fun t => rdata (x * ldr + t))) w) (root nx 1 ((x - xorig) * k))).
  rewrite <- (total_shift nx xorig f) by lia. unfold dft at 1. apply total_ext. intros t Ht. destruct (place_onto nx xorig t) as [P1 P2]; [lia|lia|]. unfold f.
  replace (c1 (w * ldc + t)) with (dft nt (-1) (real_values (fun t0 => rdata ((t + xorig) mod nx * ldr + t0))) w).
  - f_equal. rewrite <- (root_mod 1 ltac:(auto) nx (t * k)), <- (root_mod 1 ltac:(auto) nx (_ * k)) by lia. f_equal. rewrite place_mod in P2 by lia. rewrite <- (Zmult_mod_idemp_l ((t + xorig) mod nx - xorig)), P2. reflexivity.
  - replace (w * ldc + t) with (w * ldc + place nx xorig ((t + xorig) mod nx)) by now rewrite P2. rewrite D by lia. unfold cdum. rewrite rcmfft_ok by lia. reflexivity.
Qed.
Print Assumptions C34_xt2wkx.
Theorem C34_wkx2xt junk cdata rdata nt nx ldc ldr xorig : 1 <= nt -> nt <= ldr -> nx <= ldc -> 0 <= xorig < nx ->
  forall x t, 0 <= x < nx -> 0 <= t < nt -> wkx2xt junk cdata rdata nt nx ldc ldr xorig (x * ldr + t) =
    (/ (IZR nt * IZR nx) * fst (dft nt 1 (hermitian nt (fun w => total (Z.to_nat nx) (fun k => times (cdata (w * ldc + k)%Z) (root nx (-1) (k * (x - xorig))%Z)))) t))%R.
Proof.
  intros Hnt Hldr Hldc Hxo x t Hx Ht. unfold wkx2xt. rewrite half_length. pose proof (half_bound nt Hnt). set (c1 := ccmfft cdata nx (nt / 2 + 1) ldc (-1)).
  assert (C1 : forall w k, 0 <= w <= nt / 2 -> 0 <= k < nx -> c1 (w * ldc + k) = dft nx (-1) (fun t => cdata (w * ldc + t)) k) by (intros; unfold c1; apply (ccmfft_ok cdata nx (nt / 2 + 1) ldc (-1)); lia). clearbody c1.
  set (cdum := fold_left _ (range 0 (nt / 2 + 1)) junk).
  assert (D : forall i j, 0 <= i < nx -> 0 <= j <= nt / 2 -> cdum (i * (nt / 2 + 1) + j) = c1 (j * ldc + place nx xorig i)).
  { intros i j Hi Hj. unfold cdum.
    set (back := fun i => if i <? nx - xorig then i + xorig else i - (nx - xorig)).
    rewrite (fold_left_ext _ (fun c j => fold_left (fun c i => upd c (back i * (nt / 2 + 1) + j) (c1 (j * ldc + i))) (range 0 nx) c)).
    - destruct (grid (fun j i => back i * (nt / 2 + 1) + j) (fun j i _ => c1 (j * ldc + i)) (range 0 (nt / 2 + 1)) (range 0 nx) (range_NoDup _ _) (range_NoDup _ _)) with (m := junk) as [G1 _].
      + intros a b a' b' Ha Hb Ha' Hb' E. rewrite !in_range in *. destruct (row_inj (nt / 2 + 1) (nt / 2 + 1) (back b) a (back b') a') as [E1 E2]; [lia|lia|lia|exact E|]. split; [exact E2|]. unfold back in E1. destruct (Z.ltb_spec b (nx - xorig)), (Z.ltb_spec b' (nx - xorig)); lia.
      + assert (Eb : back (place nx xorig i) = i) by (unfold back, place; destruct (Z.ltb_spec i xorig); [destruct (Z.ltb_spec (nx - xorig + i) (nx - xorig))|destruct (Z.ltb_spec (i - xorig) (nx - xorig))]; lia).
        rewrite <- Eb at 1. apply (G1 j (place nx xorig i)); apply in_range; [lia|]. apply place_range; lia.
    - intros c j' _. replace (range 0 nx) with (range 0 (nx - xorig) ++ map (fun i => i + (nx - xorig)) (range 0 xorig)).
      + rewrite fold_left_app, fold_map. rewrite (fold_left_ext (fun c i => upd c ((i + xorig) * (nt / 2 + 1) + j') (c1 (j' * ldc + i))) (fun c i => upd c (back i * (nt / 2 + 1) + j') (c1 (j' * ldc + i))) (range 0 (nx - xorig))).
        * apply fold_left_ext. intros c' i' Hi'. apply in_range in Hi'. unfold back. destruct (Z.ltb_spec (i' + (nx - xorig)) (nx - xorig)); [lia|]. f_equal; [ring|]. f_equal. ring.
        * intros c' i' Hi'. apply in_range in Hi'. unfold back. destruct (Z.ltb_spec i' (nx - xorig)); [reflexivity|lia].
      + assert (R : forall b a, 0 <= b -> range 0 a ++ map (fun i => i + Z.max 0 a) (range 0 b) = range 0 (Z.max 0 a + b)).
        { intros b a Hb. revert b Hb. refine (natlike_ind _ _ _).
          - rewrite (range_nil 0 0) by lia. cbn [map]. rewrite app_nil_r. destruct (Z.le_gt_cases 0 a); [f_equal; lia|]. rewrite !range_nil by lia. reflexivity.
          - intros b Hb IH. unfold Z.succ. rewrite range_snoc by lia. rewrite map_app, app_assoc, IH. cbn [map]. replace (Z.max 0 a + (b + 1)) with (Z.max 0 a + b + 1) by ring. rewrite range_snoc by lia. f_equal. f_equal. ring. }
        pose proof (R xorig (nx - xorig) ltac:(lia)) as R'. rewrite Z.max_r in R' by lia. rewrite R'. f_equal. ring. }
  clearbody cdum. set (r1 := crmfft cdum rdata nt nx (nt / 2 + 1) ldr 1). destruct (crmfft_ok cdum rdata nt nx (nt / 2 + 1) ldr 1 Hldr) as [K1 _]. fold r1 in K1. clearbody r1.
  destruct (scale_ok r1 (1 / IZR (nt * nx)) nx ldr) as [S1 _]. rewrite S1, K1 by lia.
  replace (dft nt 1 (hermitian nt (fun k => cdum (x * (nt / 2 + 1) + k))) t) with (dft nt 1 (hermitian nt (fun w => total (Z.to_nat nx) (fun k => times (cdata (w * ldc + k)%Z) (root nx (-1) (k * (x - xorig))%Z)))) t).
  - rewrite mult_IZR. unfold Rdiv. ring.
  - apply dft_ext. intros i Hi. apply hermitian_ext; [lia|lia|]. intros j Hj. rewrite D, C1 by (try apply place_range; lia). unfold dft. apply total_ext. intros k Hk. f_equal.
    rewrite place_mod by lia. rewrite <- (root_mod (-1) ltac:(auto) nx (k * (x - xorig))), <- (root_mod (-1) ltac:(auto) nx (k * ((x - xorig) mod nx))) by lia. f_equal. now rewrite Zmult_mod_idemp_r.
Qed.
Print Assumptions C34_wkx2xt.
(** round trip *)
Theorem C34_wkx_round_trip j1 j2 rdata cdata rdata' nt nx ldr ldc ldr' xorig : 1 <= nt -> nx <= ldc -> nt <= ldr' -> 0 <= xorig < nx ->
  forall x t, 0 <= x < nx -> 0 <= t < nt -> wkx2xt j2 (xt2wkx j1 rdata cdata nt nx ldr ldc xorig) rdata' nt nx ldc ldr' xorig (x * ldr' + t) = rdata (x * ldr + t).
Proof.
  intros Hnt Hldc Hldr Hxo x t Hx Ht. rewrite C34_wkx2xt by assumption.
  set (D := fun x w => dft nt (-1) (real_values (fun t => rdata (x * ldr + t))) w).
  assert (E : forall w, 0 <= w <= nt / 2 -> total (Z.to_nat nx) (fun k => times (xt2wkx j1 rdata cdata nt nx ldr ldc xorig (w * ldc + k)) (root nx (-1) (k * (x - xorig)))) = scaled (IZR nx) (D x w)).
  { intros w Hw. set (p := (x - xorig) mod nx). assert (Hp : 0 <= p < nx) by (apply Z.mod_pos_bound; lia).
    (* the slice is the transform of the traces in the order of their places *)
    assert (A : forall k, 0 <= k < nx -> xt2wkx j1 rdata cdata nt nx ldr ldc xorig (w * ldc + k) = dft nx 1 (fun s => D ((s + xorig) mod nx) w) k).
    { intros k Hk. rewrite C34_xt2wkx by assumption. rewrite <- (total_shift nx xorig) by lia. unfold dft. apply total_ext. intros s Hs. unfold D. f_equal.
      rewrite <- (root_mod 1 ltac:(auto) nx (s * k)), <- (root_mod 1 ltac:(auto) nx (_ * k)) by lia. f_equal. rewrite <- (Zmult_mod_idemp_l ((s + xorig) mod nx - xorig)), Zminus_mod_idemp_l. replace (s + xorig - xorig) with s by ring. now rewrite Zmult_mod_idemp_l. }
    transitivity (dft nx (- (1)) (dft nx 1 (fun s => D ((s + xorig) mod nx) w)) p).
    - unfold dft at 1. apply total_ext. intros k Hk. rewrite A by lia. f_equal. unfold p. change (- (1)) with (-1). rewrite <- (root_mod (-1) ltac:(auto) nx (k * (x - xorig))), <- (root_mod (-1) ltac:(auto) nx (k * ((x - xorig) mod nx))) by lia. f_equal. now rewrite Zmult_mod_idemp_r.
    - rewrite dft_inverse by (auto || lia). f_equal. f_equal. unfold p. rewrite Zplus_mod_idemp_l. replace (x - xorig + xorig) with x by ring. apply Z.mod_small; lia. }
  replace (dft nt 1 (hermitian nt (fun w => total (Z.to_nat nx) (fun k => times (xt2wkx j1 rdata cdata nt nx ldr ldc xorig (w * ldc + k)) (root nx (-1) (k * (x - xorig)))))) t)
    with (scaled (IZR nx) (dft nt (- (-1)) (dft nt (-1) (real_values (fun t => rdata (x * ldr + t)))) t)).
  - rewrite dft_inverse by (auto || lia). unfold scaled, real_values. cbn [fst]. field. split; apply not_0_IZR; lia.
  - change (- (-1)) with 1. transitivity (dft nt 1 (fun w => cmul (IZR nx, 0%R) (dft nt (-1) (real_values (fun t => rdata (x * ldr + t))) w)) t).
    + unfold dft at 1 3. rewrite (total_ext _ (fun j => times (cmul (IZR nx, 0%R) _) (root nt 1 (j * t))) (fun j => cmul (IZR nx, 0%R) (times (dft nt (-1) (real_values (fun t0 => rdata (x * ldr + t0))) j) (root nt 1 (j * t))))) by (intros; rewrite !times_cmul; ring).
      rewrite total_mul_l. unfold scaled, cmul. cbn [fst snd]. f_equal; ring.
    + apply dft_ext. intros i Hi. transitivity (hermitian nt (fun w => scaled (IZR nx) (D x w)) i); [|apply hermitian_ext; [lia|lia|intros j Hj; symmetry; now apply E]].
      rewrite <- (hermitian_real nt (-1)) by (auto || lia). unfold D, hermitian, scaled, cmul. cbn [fst snd]. destruct (i =? 0); [cbn [fst snd]; f_equal; ring|]. destruct (2 * i <? nt); [cbn [fst snd]; f_equal; ring|]. destruct (2 * i =? nt); cbn [fst snd]; f_equal; ring.
Qed.
Print Assumptions C34_wkx_round_trip.
(** The input gather may not share the padding: the columns behind the samples of the output are scaled. *)
Example C34_padding : wx2xt (fun _ => (0, 0)%R) (fun _ => (0, 0)%R) (fun _ => 8%R) 2 1 1 3 2 = 4%R.
Proof. destruct (C34_wx2xt (fun _ => (0, 0)%R) (fun _ => (0, 0)%R) (fun _ => 8%R) 2 1 1 3) as (_ & E & _); [lia|lia|lia|]. specialize (E 0 2 ltac:(lia) ltac:(lia)). change (0 * 3 + 2) with 2 in E. rewrite E. field. Qed.
Example C34_nonvacuous : 1 <= 4 /\ 0 <= 3 <= 5 /\ 4 <= 6 /\ 0 <= 1 < 3 /\ map (place 5 2) (range 0 5) = [3; 4; 0; 1; 2].
Proof. repeat split; try lia. Qed.
