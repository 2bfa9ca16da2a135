(** Proofs about the model of fconv. *)
From Coq Require Import ZArith Reals List Lia Lra Bool.
From Verif Require Import ListAux FdKernels FdProofs FdOutputProofs Marchenko MarchenkoProofs KissFft FftSize FftSpec FftAux FftInverse LibFft PropertiesDft PropertiesRealFft FftLayout PropertiesFftLayout Fconv FconvSpec.
Import ListNotations.
Local Open Scope Z_scope.

(** ** sums *)
Lemma sum_total n f : total n (fun i => (f i, 0%R)) = (sum n f, 0%R).
Proof. induction n as [|n IH]; [reflexivity|]. cbn [total sum]. rewrite IH. unfold plus. cbn [fst snd]. f_equal. ring. Qed.
Lemma Sum_total n f : total (Z.to_nat n) (fun i => (f i, 0%R)) = (Sum n f, 0%R).
Proof. apply sum_total. Qed.
Lemma Sum_ext n f g : (forall i, 0 <= i < n -> f i = g i) -> Sum n f = Sum n g.
Proof.
  intros H. pose proof (Sum_total n f) as E1. pose proof (Sum_total n g) as E2. rewrite (total_ext _ _ (fun i => (g i, 0%R))) in E1 by (intros; rewrite H by lia; reflexivity). congruence.
Qed.
Lemma Sum_zero n f : (forall i, 0 <= i < n -> f i = 0%R) -> Sum n f = 0%R.
Proof. intros H. pose proof (Sum_total n f) as E. rewrite total_zero in E by (intros; rewrite H by lia; reflexivity). now injection E. Qed.
Lemma Sum_split a n f : 0 <= a <= n -> Sum n f = (Sum a f + Sum (n - a) (fun i => f (a + i)%Z))%R.
Proof.
  intros H. pose proof (Sum_total n f) as E. replace (Z.to_nat n) with (Z.to_nat a + Z.to_nat (n - a))%nat in E by lia. rewrite total_app, Sum_total in E.
  rewrite Z2Nat.id in E by lia. rewrite (Sum_total (n - a) (fun i => f (a + i))) in E. unfold cadd in E. cbn [fst snd] in E. injection E as E _. now rewrite <- E.
Qed.
Lemma Sum_shift n x f : 0 <= x < n -> Sum n (fun t => f ((t + x) mod n)) = Sum n f.
Proof.
  intros H. pose proof (total_shift n x (fun t => (f t, 0%R)) H) as E. cbv beta in E. rewrite (Sum_total n (fun t => f ((t + x) mod n))), Sum_total in E. now injection E.
Qed.
Lemma Sum_shift' n x f : 0 < n -> Sum n (fun t => f ((t + x) mod n)) = Sum n f.
Proof.
  intros H. rewrite <- (Sum_shift n (x mod n) f) by (apply Z.mod_pos_bound; lia). apply Sum_ext. intros t Ht. rewrite Zplus_mod_idemp_r. reflexivity.
Qed.
Lemma Sum_single n f k : 0 <= k < n -> (forall i, 0 <= i < n -> i <> k -> f i = 0%R) -> Sum n f = f k.
Proof.
  intros Hk H. pose proof (Sum_total n f) as E. rewrite (total_single _ _ k) in E by (try lia; intros; rewrite H by lia; reflexivity). now injection E.
Qed.
Lemma Sum_add n f g : Sum n (fun i => f i + g i)%R = (Sum n f + Sum n g)%R.
Proof. unfold Sum. induction (Z.to_nat n) as [|m IH]; cbn [sum]; [ring|]. rewrite IH. ring. Qed.
Lemma Sum_scale n c f : Sum n (fun i => c * f i)%R = (c * Sum n f)%R.
Proof. unfold Sum. induction (Z.to_nat n) as [|m IH]; cbn [sum]; [ring|]. rewrite IH. ring. Qed.

(** ** spectra *)
Section SPECTRA.
Variable n : Z.
Hypothesis Hn : 1 <= n.
Local Notation w := (root n (-1)).
Lemma Hm1 : -1 = 1 \/ -1 = -1. Proof. now right. Qed.
Lemma w_mod k : w (k mod n) = w k. Proof. apply root_mod; [exact Hm1|lia]. Qed.
Lemma w_add i j : w (i + j) = cmul (w i) (w j). Proof. apply root_add, Hm1. Qed.
Lemma w_mul_mod i k : w (i mod n * k) = w (i * k).
Proof. rewrite <- (w_mod (i mod n * k)), <- (w_mod (i * k)). now rewrite Zmult_mod_idemp_l. Qed.
(** A real trace from its spectrum *)
Lemma back q c : (forall k, 0 <= k <= n / 2 -> c k = spectrum n q k) -> forall t, 0 <= t < n -> fst (dft n 1 (hermitian n c) t) = (IZR n * q t)%R.
Proof.
  intros H t Ht. rewrite (PropertiesFftLayout.dft_ext n 1 _ (dft n (-1) (real_values q))).
  - change 1 with (- -1). rewrite dft_inverse by (try exact Hm1; exact Ht). reflexivity.
  - intros i Hi. rewrite (hermitian_ext n c (spectrum n q)) by (try lia; exact H). unfold spectrum. apply hermitian_real; [exact Hn|exact Hm1|exact Hi].
Qed.
Lemma total_shift' (x : Z) (f : Z -> C) : total (Z.to_nat n) (fun t => f ((t + x) mod n)) = total (Z.to_nat n) f.
Proof. rewrite <- (total_shift n (x mod n) f) by (apply Z.mod_pos_bound; lia). apply total_ext. intros t Ht. rewrite Zplus_mod_idemp_r. reflexivity. Qed.
(** A delayed trace *)
Lemma spectrum_delay q m k : spectrum n (fun t => q ((t - m) mod n)) k = cmul (w (m * k)) (spectrum n q k).
Proof.
  unfold spectrum, dft. rewrite <- total_mul_l. rewrite <- (total_shift' (- m) (fun i => cmul (w (m * k)) (times (real_values q i) (w (i * k))))).
  apply total_ext. intros t Ht. unfold real_values. rewrite times_cmul. replace (t + - m) with (t - m) by ring. rewrite w_mul_mod.
  replace (t * k) with (m * k + (t - m) * k) by ring. rewrite w_add. ring.
Qed.
Lemma spectrum_convolution a b k : spectrum n (convolution n a b) k = cmul (spectrum n a k) (spectrum n b k).
Proof.
  unfold spectrum at 1, dft. rewrite (total_ext _ _ (fun t => total (Z.to_nat n) (fun j => cmul (cmul (a j, 0%R) (b ((t - j) mod n), 0%R)) (w (t * k))))).
  - rewrite total_swap. rewrite (total_ext _ _ (fun j => cmul (cmul (a j, 0%R) (w (j * k))) (spectrum n b k))).
    + rewrite total_mul_r. reflexivity.
    + intros j Hj. transitivity (cmul (a j, 0%R) (cmul (w (j * k)) (spectrum n b k))); [|ring]. rewrite <- (spectrum_delay b j k). unfold spectrum, dft. rewrite <- total_mul_l. apply total_ext. intros t Ht. rewrite times_cmul. unfold real_values. ring.
  - intros t Ht. rewrite total_mul_r. rewrite times_cmul. f_equal. unfold real_values, convolution. rewrite (total_ext _ _ (fun j => (a j * b ((t - j) mod n)%Z, 0)%R)).
    + now rewrite Sum_total.
    + intros j _. unfold cmul. cbn [fst snd]. f_equal; ring.
Qed.
Lemma total_reverse (f : Z -> C) : total (Z.to_nat n) (fun t => f ((- t) mod n)) = total (Z.to_nat n) f.
Proof.
  rewrite <- (total_shift' (1) f). rewrite <- (total_rev (Z.to_nat n) (fun t => f ((t + 1) mod n))). apply total_ext. intros t Ht. f_equal. rewrite Z2Nat.id by lia. replace (n - 1 - t + 1) with (- t + 1 * n) by ring. now rewrite Z.mod_add by lia.
Qed.
Definition reversed (q : Z -> R) (t : Z) : R := q ((- t) mod n).
Lemma spectrum_reversed q k : spectrum n (reversed q) k = conj (spectrum n q k).
Proof.
  unfold spectrum, dft. rewrite <- total_conj. rewrite <- (total_reverse (fun t => conj (times (real_values q t) (w (t * k))))). apply total_ext. intros t Ht. rewrite w_mul_mod. rewrite times_cmul, conj_cmul. unfold real_values, reversed.
  rewrite <- root_opp by exact Hm1. replace (- (- t * k)) with (t * k) by ring. f_equal. unfold conj. cbn [fst snd]. f_equal. ring.
Qed.
Lemma correlation_reversed a b t : correlation n a b t = convolution n a (reversed b) t.
Proof.
  unfold correlation, convolution, reversed. rewrite <- (Sum_shift' n t (fun j => (a j * b ((- ((t - j) mod n)) mod n)%Z)%R)) by lia. apply Sum_ext. intros j Hj. f_equal. f_equal.
  rewrite <- (Z.sub_0_l ((t - (j + t) mod n) mod n)). rewrite Zminus_mod_idemp_r. replace (0 - (t - (j + t) mod n)) with ((j + t) mod n - t) by ring. rewrite Zminus_mod_idemp_l. replace (j + t - t) with j by ring. rewrite Z.mod_small; lia.
Qed.
Lemma spectrum_ext a b k : (forall t, 0 <= t < n -> a t = b t) -> spectrum n a k = spectrum n b k.
Proof. intros H. unfold spectrum. apply PropertiesFftLayout.dft_ext. intros i Hi. unfold real_values. now rewrite H. Qed.
Lemma spectrum_correlation a b k : spectrum n (correlation n a b) k = cmul (spectrum n a k) (conj (spectrum n b k)).
Proof.
  rewrite (spectrum_ext _ (convolution n a (reversed b))) by (intros; apply correlation_reversed). rewrite spectrum_convolution, spectrum_reversed. reflexivity.
Qed.
Lemma spectrum_even q k : spectrum n (fun t => ((q t + q ((- t) mod n)%Z) / 2)%R) k = (fst (spectrum n q k), 0%R).
Proof.
  transitivity (cadd (cmul (1 / 2, 0)%R (spectrum n q k)) (cmul (1 / 2, 0)%R (spectrum n (reversed q) k))).
  - unfold spectrum. rewrite <- dft_lin. apply PropertiesFftLayout.dft_ext. intros i Hi. unfold real_values, reversed, cadd, cmul. cbn [fst snd]. f_equal; field.
  - rewrite spectrum_reversed. unfold cadd, cmul, conj. cbn [fst snd]. f_equal; field.
Qed.
(** Any hermitian spectrum is that of a real trace *)
Lemma spectrum_exists c : snd (c 0) = 0%R -> (2 * (n / 2) = n -> snd (c (n / 2)) = 0%R) ->
  forall k, 0 <= k <= n / 2 -> c k = spectrum n (fun t => / IZR n * fst (dft n 1 (hermitian n c) t))%R k.
Proof.
  intros H0 H2 k Hk. assert (Nz : IZR n <> 0%R) by (apply not_0_IZR; lia). pose proof (Z.div_mod n 2 ltac:(lia)). pose proof (Z.mod_pos_bound n 2 ltac:(lia)).
  assert (E : hermitian n c k = spectrum n (fun t => / IZR n * fst (dft n 1 (hermitian n c) t))%R k \/ k = n).
  { destruct (Z.eq_dec k n) as [->|Ne]; [now right|left]. unfold spectrum. rewrite (PropertiesFftLayout.dft_ext n (-1) _ (fun t => cadd (cmul (/ IZR n, 0)%R (dft n 1 (hermitian n c) t)) (cmul c0 c0))).
    - rewrite dft_lin. change (-1) with (- (1)). rewrite dft_inverse by (try (now left); lia). unfold cadd, cmul, scaled, c0. cbn [fst snd]. apply C_eq; cbn [fst snd]; field; exact Nz.
    - intros i Hi. pose proof (hermitian_dft_real n 1 c i Hn (or_introl eq_refl)) as I. unfold real_values. cbv beta. destruct (dft n 1 (hermitian n c) i) as [u v]. cbn [snd] in I. subst v. unfold real_values, cadd, cmul, c0. cbn [fst snd]. f_equal; ring. }
  destruct E as [E|E]; [|exfalso; lia]. rewrite <- E. unfold hermitian. destruct (Z.eqb_spec k 0) as [->|N0].
  - rewrite <- H0. now destruct (c 0).
  - destruct (Z.ltb_spec (2 * k) n); [reflexivity|]. destruct (Z.eqb_spec (2 * k) n) as [E2|]; [|lia]. assert (k = n / 2) by lia. subst k. rewrite <- (H2 ltac:(lia)). now destruct (c (n / 2)).
Qed.
Lemma spectrum_ends q : snd (spectrum n q 0) = 0%R /\ (2 * (n / 2) = n -> snd (spectrum n q (n / 2)) = 0%R).
Proof.
  split.
  - unfold spectrum, dft. rewrite (total_ext _ _ (fun j => (q j, 0%R))) by (intros j _; rewrite Z.mul_0_r, root_0; unfold times, real_values, c1; cbn [fst snd]; f_equal; ring). now rewrite sum_total.
  - intros E. pose proof (dft_real_sym n (-1) (real_values q) (n / 2) Hn Hm1 (fun _ => eq_refl)) as S. replace (n - n / 2) with (n / 2) in S by lia. fold (spectrum n q) in S. apply (f_equal snd) in S. unfold conj in S. cbn [snd] in S. lra.
Qed.
End SPECTRA.

(** ** the functions *)
Lemma pad_row (data : Z -> R) nsam nsamout ix : 0 <= nsam <= nsamout -> forall o,
  fold_left (fun o it => upd o (ix * nsamout + it) 0%R) (range nsam nsamout) (fold_left (fun o it => upd o (ix * nsamout + it) (data (ix * nsam + it))) (range 0 nsam) o) =
  fold_left (fun o it => upd o (ix * nsamout + it) (padded data nsam ix it)) (range 0 nsamout) o.
Proof.
  intros Hs o. rewrite (range_split 0 nsam nsamout) by lia. rewrite fold_left_app.
  rewrite (fold_left_ext (fun o it => upd o (ix * nsamout + it) (padded data nsam ix it)) (fun o it => upd o (ix * nsamout + it) 0%R) (range nsam nsamout)).
  - f_equal. apply fold_left_ext. intros a b Hb. apply in_range in Hb. unfold padded. now replace (b <? nsam) with true by lia.
  - intros a b Hb. apply in_range in Hb. unfold padded. now replace (b <? nsam) with false by lia.
Qed.
Lemma pad_data_ok data nsam nrec nsamout out : 0 <= nsam <= nsamout -> forall i t, 0 <= i < nrec -> 0 <= t < nsamout ->
  pad_data data nsam nrec nsamout out (i * nsamout + t) = padded data nsam i t.
Proof.
  intros Hs i t Hi Ht. unfold pad_data.
  rewrite (fold_left_ext _ (fun o ix => fold_left (fun o it => upd o (ix * nsamout + it) (padded data nsam ix it)) (range 0 nsamout) o)) by (intros; apply pad_row, Hs).
  destruct (grid (fun i k => i * nsamout + k) (fun i k _ => padded data nsam i k) (range 0 nrec) (range 0 nsamout) (range_NoDup _ _) (range_NoDup _ _)) with (m := out) as [G _].
  - intros a b a' b' Ha Hb Ha' Hb' E. rewrite in_range in *. apply (row_inj nsamout nsamout); lia.
  - apply G; apply in_range; lia.
Qed.
Lemma scl_data_ok data nsam nrec scl out nsamout :
  (forall i t, 0 <= i < nrec -> 0 <= t < nsamout -> scl_data data nsam nrec scl out nsamout (i * nsamout + t) = (scl * data (i * nsam + t)%Z)%R) /\
  (forall x, ~ 0 <= x < nrec * nsamout -> scl_data data nsam nrec scl out nsamout x = out x).
Proof.
  unfold scl_data. destruct (grid (fun i k => i * nsamout + k) (fun i k _ => scl * data (i * nsam + k)%Z)%R (range 0 nrec) (range 0 nsamout) (range_NoDup _ _) (range_NoDup _ _)) with (m := out) as [G1 G2].
  - intros a b a' b' Ha Hb Ha' Hb' E. rewrite in_range in *. apply (row_inj nsamout nsamout); lia.
  - split; [intros; apply G1; apply in_range; lia|]. intros x Hx. apply G2. intros i j Hi Hj. apply in_range in Hi, Hj. nia.
Qed.
Lemma pointwise_ok f n q j : 0 <= j < n -> pointwise f n q j = f j.
Proof. intros H. unfold pointwise. rewrite fold_write. now replace ((0 <=? j) && (j <? n)) with true by lia. Qed.
Lemma cell nrec nfreq i k : 0 <= i < nrec -> 0 <= k < nfreq -> 0 <= i * nfreq + k < nrec * nfreq.
Proof. intros. nia. Qed.
Section DELAY.
Variables (dt : R) (n nsam nrec : Z).
Hypotheses (Hdt : dt <> 0%R) (Hn : 1 <= n).
Lemma angle k : (IZR k * (2 * PI * (1 / (dt * IZR n))) * (dt * IZR (nsam / 2)) = 2 * PI * IZR (nsam / 2 * k) / IZR n)%R.
Proof. rewrite mult_IZR. field. split; [apply not_0_IZR; lia|exact Hdt]. Qed.
Lemma delay_ok c i k : 0 <= i < nrec -> 0 <= k <= n / 2 ->
  delay dt n nsam nrec (n / 2 + 1) c (i * (n / 2 + 1) + k) = cmul (root n (-1) (nsam / 2 * k)) (c (i * (n / 2 + 1) + k)).
Proof.
  intros Hi Hk. unfold delay. cbv zeta.
  rewrite (fold_left_ext _ (fun c j => fold_left (fun c k => upd c (j * (n / 2 + 1) + k) (cmul (root n (-1) (nsam / 2 * k)) (c (j * (n / 2 + 1) + k)))) (range 0 (n / 2 + 1)) c)).
  - destruct (grid (fun i k => i * (n / 2 + 1) + k) (fun i k v => cmul (root n (-1) (nsam / 2 * k)) v) (range 0 nrec) (range 0 (n / 2 + 1)) (range_NoDup _ _) (range_NoDup _ _)) with (m := c) as [G _].
    + intros a b a' b' Ha Hb Ha' Hb' E. rewrite in_range in *. apply (row_inj (n / 2 + 1) (n / 2 + 1)); lia.
    + apply G; apply in_range; lia.
  - intros a j _. apply fold_left_ext. intros b l _. rewrite !angle. destruct (b (j * (n / 2 + 1) + l)) as [r im]. f_equal. unfold root, cmul. cbn [fst snd]. f_equal; ring.
Qed.
Lemma delay_power_ok c i k : 0 <= i < nrec -> 0 <= k <= n / 2 -> snd (c (i * (n / 2 + 1) + k)) = 0%R ->
  delay_power dt n nsam nrec (n / 2 + 1) c (i * (n / 2 + 1) + k) = cmul (root n (-1) (nsam / 2 * k)) (c (i * (n / 2 + 1) + k)).
Proof.
  intros Hi Hk H0. unfold delay_power. cbv zeta.
  rewrite (fold_left_ext _ (fun c j => fold_left (fun c k => upd c (j * (n / 2 + 1) + k) (cmul (root n (-1) (nsam / 2 * k)) (fst (c (j * (n / 2 + 1) + k)), 0%R))) (range 0 (n / 2 + 1)) c)).
  - destruct (grid (fun i k => i * (n / 2 + 1) + k) (fun i k v => cmul (root n (-1) (nsam / 2 * k)) (fst v, 0%R)) (range 0 nrec) (range 0 (n / 2 + 1)) (range_NoDup _ _) (range_NoDup _ _)) with (m := c) as [G _].
    + intros a b a' b' Ha Hb Ha' Hb' E. rewrite in_range in *. apply (row_inj (n / 2 + 1) (n / 2 + 1)); lia.
    + rewrite (G i k) by (apply in_range; lia). f_equal. rewrite <- H0. now destruct (c (i * (n / 2 + 1) + k)).
  - intros a j _. apply fold_left_ext. intros b l _. rewrite !Ropp_mult_distr_l_reverse. rewrite !angle. destruct (b (j * (n / 2 + 1) + l)) as [r im]. f_equal. unfold root, cmul. cbn [fst snd]. rewrite cos_neg, sin_neg. f_equal; ring.
Qed.
End DELAY.

Section SPECTRAL.
Variables (junkr : Z -> R) (junkc : Z -> C) (op : (Z -> C) -> (Z -> C) -> Z -> Z -> Z -> C) (data1 data2 out : Z -> R) (nrec nsam : Z) (dt : R) (ntout n : Z) (q : Z -> Z -> R).
Hypotheses (Hs : 1 <= nsam <= n) (Ho : ntout <= n).
(** c holds the spectra of the traces of data *)
Definition spectra_of (data : Z -> R) (c : Z -> C) : Prop := forall i k, 0 <= i < nrec -> 0 <= k <= n / 2 -> c (i * (n / 2 + 1) + k) = spectrum n (padded data nsam i) k.
Hypothesis Hop : forall c1 c2, spectra_of data1 c1 -> spectra_of data2 c2 ->
  forall i k, 0 <= i < nrec -> 0 <= k <= n / 2 -> op c1 c2 n (n / 2 + 1) (i * (n / 2 + 1) + k) = spectrum n (q i) k.
Lemma spectra_ok data : spectra_of data (rcmfft (pad_data data nsam nrec n junkr) junkc n nrec n (n / 2 + 1) (-1)).
Proof.
  intros i k Hi Hk. rewrite rcmfft_ok by lia. unfold spectrum. apply PropertiesFftLayout.dft_ext. intros t Ht. unfold real_values, trace. rewrite pad_data_ok by lia. reflexivity.
Qed.
Lemma spectral_ok :
  (forall i t, 0 <= i < nrec -> 0 <= t < ntout -> spectral_n junkr junkc n op data1 data2 out nrec nsam dt ntout (i * ntout + t) = (dt * q i t)%R) /\
  (forall x, ~ 0 <= x < nrec * ntout -> spectral_n junkr junkc n op data1 data2 out nrec nsam dt ntout x = out x).
Proof.
  unfold spectral_n. cbv zeta. set (X := crmfft _ _ _ _ _ _ _). destruct (scl_data_ok X n nrec (dt / IZR n) out ntout) as [S1 S2]. split; [|exact S2].
  intros i t Hi Ht. rewrite S1 by assumption. unfold X. rewrite (proj1 (crmfft_ok _ _ n nrec (n / 2 + 1) n 1 (Z.le_refl n))) by lia.
  rewrite (back n ltac:(lia) (q i)) by (try lia; intros k Hk; apply Hop; try assumption; apply spectra_ok).
  assert (Nz : IZR n <> 0%R) by (apply not_0_IZR; lia). clear - Nz. revert Nz.
  generalize (IZR n). intros x Nz. field. exact Nz.
Qed.
End SPECTRAL.
