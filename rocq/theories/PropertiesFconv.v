(** Properties of fconv (C69-C73). *)
From Coq Require Import ZArith Reals List Lia Lra Bool.
From Verif Require Import ListAux FdKernels FdProofs FdOutputProofs Marchenko MarchenkoProofs KissFft FftSize PropertiesFftSize FftSpec FftAux FftInverse LibFft PropertiesDft PropertiesRealFft FftLayout PropertiesFftLayout Fconv FconvSpec FconvProofs.
Import ListNotations.
Local Open Scope Z_scope.

(** ** auxiliary *)
Lemma convolution_mod n a b t : 0 < n -> convolution n a b (t mod n) = convolution n a b t.
Proof. intros H. unfold convolution. apply Sum_ext. intros j _. now rewrite Zminus_mod_idemp_l. Qed.
Lemma correlation_mod n a b t : 0 < n -> correlation n a b (t mod n) = correlation n a b t.
Proof. intros H. unfold correlation. apply Sum_ext. intros j _. now rewrite Zplus_mod_idemp_r. Qed.
(** The operation on the spectra, with and without the shift *)
Lemma shifted (shift : bool) (dt : R) n nsam nrec (Q : Z -> C) (q : Z -> Z -> R) : dt <> 0%R -> 1 <= n ->
  (forall i k, 0 <= i < nrec -> 0 <= k <= n / 2 -> Q (i * (n / 2 + 1) + k) = spectrum n (q i) k) ->
  forall i k, 0 <= i < nrec -> 0 <= k <= n / 2 ->
  (if shift then delay dt n nsam nrec (n / 2 + 1) Q else Q) (i * (n / 2 + 1) + k) = spectrum n (fun t => q i ((t - if shift then nsam / 2 else 0) mod n)) k.
Proof.
  intros Hdt Hn HQ i k Hi Hk. destruct shift.
  - rewrite delay_ok by assumption. rewrite HQ by assumption. symmetry. apply (spectrum_delay n Hn).
  - rewrite HQ by assumption. apply spectrum_ext. intros t Ht. rewrite Z.sub_0_r, Z.mod_small by lia. reflexivity.
Qed.

(** ** C69 *)
(** Convolution: every sample is dt times the periodic convolution, with the period of the transform, of the
    two traces extended with zeroes; with the shift, time zero is at sample nsam/2.  Nothing else is written. *)
Theorem C69_convolution junkr junkc data1 data2 out nrec nsam dt shift : 1 <= nsam <= optncr nsam -> dt <> 0%R ->
  let r := convol junkr junkc data1 data2 out nrec nsam dt shift in
  (forall i t, 0 <= i < nrec -> 0 <= t < nsam ->
    r (i * nsam + t) = (dt * convolution (optncr nsam) (padded data1 nsam i) (padded data2 nsam i) (t - if shift then nsam / 2 else 0))%R) /\
  (forall x, ~ 0 <= x < nrec * nsam -> r x = out x).
Proof.
  intros Hs Hdt r. unfold r, convol, spectral. generalize dependent (optncr nsam). intros n Hs.
  match goal with |- context [spectral_n _ _ n ?o _ _ _ _ _ _ _] => destruct (spectral_ok junkr junkc o data1 data2 out nrec nsam dt nsam n (fun i t => convolution n (padded data1 nsam i) (padded data2 nsam i) ((t - if shift then nsam / 2 else 0) mod n)) Hs ltac:(lia)) as [S1 S2] end.
  - intros c1 c2 H1 H2 i k Hi Hk. cbv zeta. apply (shifted shift dt n nsam nrec _ (fun i => convolution n (padded data1 nsam i) (padded data2 nsam i))); [assumption|lia| |assumption|assumption].
    clear i k Hi Hk. intros i k Hi Hk. rewrite pointwise_ok by (apply cell; lia). rewrite spectrum_convolution by lia. rewrite <- H1, <- H2 by assumption. destruct (c1 (i * (n / 2 + 1) + k)), (c2 (i * (n / 2 + 1) + k)). unfold cmul. cbn [fst snd]. f_equal; ring.
  - split; [|exact S2]. intros i t Hi Ht. rewrite S1 by assumption. rewrite convolution_mod by lia. reflexivity.
Qed.
Print Assumptions C69_convolution.
(** There is room for every trace of at most 16384 samples *)
Theorem C69_room nsam : 1 <= nsam <= 16384 -> 1 <= nsam <= optncr nsam.
Proof. intros H. split; [lia|]. now apply C29_small. Qed.
Print Assumptions C69_room.

Lemma conv_parts n a b t : 0 <= t < n ->
  convolution n a b t = (true_convolution a b t + Sum (n - 1 - t) (fun i => a (t + 1 + i)%Z * b (n - 1 - i)%Z))%R.
Proof.
  intros Ht. unfold convolution, true_convolution. rewrite (Sum_split (t + 1) n) by lia. f_equal.
  - apply Sum_ext. intros j Hj. rewrite Z.mod_small by lia. reflexivity.
  - replace (n - (t + 1)) with (n - 1 - t) by ring. apply Sum_ext. intros i Hi. f_equal. f_equal. replace (t - (t + 1 + i)) with (n - 1 - i + -1 * n) by ring. rewrite Z.mod_add, Z.mod_small by lia. reflexivity.
Qed.
(** Traces that end before samples n1 and n2 are convolved without wrap-around, except that the samples before
    n1 + n2 - 1 - n hold the end of the result too, with n the length of the transform. *)
Theorem C69_no_wrap_around junkr junkc data1 data2 out nrec nsam dt n1 n2 i t : 1 <= nsam <= optncr nsam -> dt <> 0%R -> 0 <= i < nrec ->
  (forall j, n1 <= j < nsam -> data1 (i * nsam + j) = 0%R) -> (forall j, n2 <= j < nsam -> data2 (i * nsam + j) = 0%R) ->
  0 <= t < nsam -> n1 + n2 - 1 - optncr nsam <= t ->
  convol junkr junkc data1 data2 out nrec nsam dt false (i * nsam + t) = (dt * true_convolution (fun j => data1 (i * nsam + j)%Z) (fun j => data2 (i * nsam + j)%Z) t)%R.
Proof.
  intros Hs Hdt Hi H1 H2 Ht Hw. pose proof (C69_convolution junkr junkc data1 data2 out nrec nsam dt false Hs Hdt) as [C _]. cbv zeta in C. rewrite C by assumption. clear C. rewrite Z.sub_0_r. f_equal. generalize dependent (optncr nsam). intros n Hs Hw. rewrite conv_parts by lia.
  rewrite (Sum_zero (n - 1 - t)).
  - rewrite Rplus_0_r. unfold true_convolution. apply Sum_ext. intros j Hj. unfold padded. replace (j <? nsam) with true by lia. now replace (t - j <? nsam) with true by lia.
  - intros j Hj. unfold padded. destruct (Z.ltb_spec (t + 1 + j) nsam); [|ring]. destruct (Z.ltb_spec (n - 1 - j) nsam); [|ring].
    destruct (Z.le_gt_cases n1 (t + 1 + j)); [rewrite H1 by lia; ring|]. rewrite (H2 (n - 1 - j)) by lia. ring.
Qed.
Print Assumptions C69_no_wrap_around.
Definition spike (k : Z) (x : Z) : R := if x =? k then 1%R else 0%R.
Lemma guess_power k : 0 <= k -> guess (2 ^ k) = k.
Proof.
  intros H. rewrite PropertiesFftSize.guess_eq. generalize 10000 (eq_refl : (1 <=? 10000) = true). intros D HD. apply Z.leb_le in HD.
  apply PropertiesFftSize.guess_unique; [exact HD|pose proof (Z.pow_pos_nonneg 2 k); lia|exact H|].
  rewrite <- Z.pow_mul_r, <- Z.pow_add_r by nia. split; [apply Z.pow_le_mono_r|apply Z.pow_lt_mono_r]; nia.
Qed.
Lemma optncr_power k : 0 <= k -> optncr (2 ^ k) = 2 ^ k.
Proof. intros H. unfold optncr. cbv zeta. rewrite guess_power by exact H. now rewrite Z.eqb_refl. Qed.
Lemma optncr_4 : optncr 4 = 4. Proof. exact (optncr_power 2 ltac:(lia)). Qed.
Example C69_nonvacuous junkr junkc out : convol junkr junkc (spike 1) (spike 2) out 1 4 2 false (0 * 4 + 3) = 2%R.
Proof.
  rewrite (C69_no_wrap_around junkr junkc (spike 1) (spike 2) out 1 4 2 2 3 0 3).
  2:{ rewrite optncr_4. lia. } 2:{ lra. } 2:{ lia. } 2:{ intros j Hj. unfold spike. now replace (0 * 4 + j =? 1) with false by lia. } 2:{ intros j Hj. unfold spike. now replace (0 * 4 + j =? 2) with false by lia. } 2:{ lia. } 2:{ rewrite optncr_4. lia. }
  cbv -[Rplus Rmult IZR].
  lra.
Qed.
(** Without zeroes at the end of the traces the end of the convolution is added to its begin: a spike at 3 and
    one at 1 in traces of four samples give a spike at 0. *)
Theorem C69_wrap_around_refuted junkr junkc out dt : dt <> 0%R ->
  convol junkr junkc (spike 3) (spike 1) out 1 4 dt false 0 = dt /\ true_convolution (spike 3) (spike 1) 0 = 0%R.
Proof.
  intros Hdt. split.
  - destruct (C69_convolution junkr junkc (spike 3) (spike 1) out 1 4 dt false ltac:(rewrite optncr_4; lia) Hdt) as [C _]. cbv zeta in C. pose proof (C 0 0 ltac:(lia) ltac:(lia)) as E. clear C. rewrite optncr_4 in E. replace (0 * 4 + 0) with 0 in E by reflexivity. rewrite E. clear E. match goal with |- (_ * ?x = _)%R => replace x with 1%R; [ring|] end. cbv -[Rplus Rmult IZR]. ring.
  - cbv -[Rplus Rmult IZR]. ring.
Qed.
Print Assumptions C69_wrap_around_refuted.
(** With damping alpha the written sample is dt times the convolution of the undamped traces, plus the
    wrapped-around part multiplied by exp(alpha n dt). *)
Theorem C69_damping junkr junkc data1 data2 out nrec nsam dt alpha ntmax i t a b : 1 <= nsam <= optncr nsam -> dt <> 0%R -> 0 <= i < nrec -> nsam <= ntmax ->
  (forall j, 0 <= j < nsam -> data1 (i * nsam + j) = (a j * exp (alpha * IZR j * dt))%R) ->
  (forall j, 0 <= j < nsam -> data2 (i * nsam + j) = (b j * exp (alpha * IZR j * dt))%R) ->
  0 <= t < nsam ->
  let n := optncr nsam in
  let cut := fun (f : Z -> R) j => if j <? nsam then f j else 0%R in
  written dt alpha ntmax nsam nsam false (convol junkr junkc data1 data2 out nrec nsam dt false) i t =
  Some (dt * (true_convolution a b t + exp (alpha * IZR n * dt) * Sum (n - 1 - t) (fun j => cut a (t + 1 + j)%Z * cut b (n - 1 - j)%Z)))%R.
Proof.
  intros Hs Hdt Hi Hm H1 H2 Ht. cbv zeta. unfold written, etapi. replace (t <? ntmax) with true by lia. f_equal.
  destruct (C69_convolution junkr junkc data1 data2 out nrec nsam dt false Hs Hdt) as [C _]. cbv zeta in C. rewrite C by assumption. clear C. rewrite Z.sub_0_r. generalize dependent (optncr nsam). intros n Hs. rewrite conv_parts by lia.
  rewrite Rmult_assoc. f_equal. rewrite Rmult_plus_distr_r. f_equal.
  - unfold true_convolution. rewrite Rmult_comm, <- Sum_scale. apply Sum_ext. intros j Hj. unfold padded. replace (j <? nsam) with true by lia. replace (t - j <? nsam) with true by lia. rewrite H1, H2 by lia.
    replace (exp (- alpha * IZR t * dt) * (a j * exp (alpha * IZR j * dt) * (b (t - j)%Z * exp (alpha * IZR (t - j) * dt))))%R with (a j * b (t - j)%Z * (exp (- alpha * IZR t * dt) * exp (alpha * IZR j * dt) * exp (alpha * IZR (t - j) * dt)))%R by ring.
    rewrite <- !exp_plus. rewrite minus_IZR. replace (- alpha * IZR t * dt + alpha * IZR j * dt + alpha * (IZR t - IZR j) * dt)%R with 0%R by ring. rewrite exp_0. ring.
  - rewrite (Rmult_comm _ (exp _)), <- !Sum_scale. apply Sum_ext. intros j Hj. unfold padded. destruct (Z.ltb_spec (t + 1 + j) nsam); [|ring]. destruct (Z.ltb_spec (n - 1 - j) nsam); [|ring]. rewrite H1, H2 by lia.
    match goal with |- (?e * (?p * ?f * (?q * ?g)) = ?h * (?p * ?q))%R => replace (e * (p * f * (q * g)))%R with (p * q * (e * f * g))%R by ring; replace h with (e * f * g)%R end; [ring|].
    rewrite <- !exp_plus. f_equal. rewrite !plus_IZR, !minus_IZR. ring.
Qed.
Print Assumptions C69_damping.
(** Spikes at 3 and 1 wrap around to 0, reduced by exp(-4): alpha is negative when damping *)
Example C69_damping_nonvacuous junkr junkc out :
  written 1 (-1) 4 4 4 false (convol junkr junkc (fun j => spike 3 j * exp (-1 * IZR j * 1))%R (fun j => spike 1 j * exp (-1 * IZR j * 1))%R out 1 4 1 false) 0 0 = Some (exp (-4)).
Proof.
  rewrite (C69_damping junkr junkc _ _ out 1 4 1 (-1) 4 0 0 (spike 3) (spike 1)); rewrite ?optncr_4; try lia; try lra.
  - cbv zeta. f_equal. replace (-1 * 4 * 1)%R with (-4)%R by ring. generalize (exp (-4)). intros e. cbv -[Rplus Rmult IZR]. ring.
  - intros j Hj. reflexivity.
  - intros j Hj. reflexivity.
Qed.

(** ** C70 *)
(** Correlation: sample t is dt times the periodic correlation at lag t, or at lag t - nsam/2 with the shift. *)
Theorem C70_correlation junkr junkc data1 data2 out nrec nsam dt shift : 1 <= nsam <= optncr nsam -> dt <> 0%R ->
  let r := corr junkr junkc data1 data2 out nrec nsam dt shift in
  (forall i t, 0 <= i < nrec -> 0 <= t < nsam ->
    r (i * nsam + t) = (dt * correlation (optncr nsam) (padded data1 nsam i) (padded data2 nsam i) (t - if shift then nsam / 2 else 0))%R) /\
  (forall x, ~ 0 <= x < nrec * nsam -> r x = out x).
Proof.
  intros Hs Hdt. cbv zeta. unfold corr, spectral. generalize dependent (optncr nsam). intros n Hs.
  match goal with |- context [spectral_n _ _ n ?o _ _ _ _ _ _ _] => destruct (spectral_ok junkr junkc o data1 data2 out nrec nsam dt nsam n (fun i t => correlation n (padded data1 nsam i) (padded data2 nsam i) ((t - if shift then nsam / 2 else 0) mod n)) Hs ltac:(lia)) as [S1 S2] end.
  - intros c1 c2 H1 H2 i k Hi Hk. cbv zeta. apply (shifted shift dt n nsam nrec _ (fun i => correlation n (padded data1 nsam i) (padded data2 nsam i))); [assumption|lia| |assumption|assumption].
    clear i k Hi Hk. intros i k Hi Hk. rewrite pointwise_ok by (apply cell; lia). rewrite spectrum_correlation by lia. rewrite <- H1, <- H2 by assumption. destruct (c1 (i * (n / 2 + 1) + k)), (c2 (i * (n / 2 + 1) + k)). unfold cmul, conj. cbn [fst snd]. f_equal; ring.
  - split; [|exact S2]. intros i t Hi Ht. rewrite S1 by assumption. rewrite correlation_mod by lia. reflexivity.
Qed.
Print Assumptions C70_correlation.
Lemma corr_parts n a b n1 n2 l : 0 < n -> (forall j, n1 <= j -> a j = 0%R) -> (forall j, n2 <= j -> b j = 0%R) -> n1 - n <= l <= n - n2 -> - n < l < n ->
  correlation n a b l = true_correlation n a b l.
Proof.
  intros Hn H1 H2 Hl Hl'. unfold correlation, true_correlation. apply Sum_ext. intros j Hj. destruct (Z.le_gt_cases n2 j); [rewrite !(H2 j) by lia; ring|].
  destruct (Z.leb_spec 0 (j + l)); [rewrite Z.mod_small by lia; reflexivity|]. rewrite (H1 ((j + l) mod n)); [ring|]. replace (j + l) with (j + l + n + -1 * n) by ring. rewrite Z.mod_add, Z.mod_small by lia. lia.
Qed.
(** The lags l with n1 - n <= l <= n - n2 are free of wrap-around, for traces that end before n1 and n2. *)
Theorem C70_no_wrap_around junkr junkc data1 data2 out nrec nsam dt (shift : bool) n1 n2 i t : 1 <= nsam <= optncr nsam -> dt <> 0%R -> 0 <= i < nrec ->
  (forall j, n1 <= j < nsam -> data1 (i * nsam + j) = 0%R) -> (forall j, n2 <= j < nsam -> data2 (i * nsam + j) = 0%R) -> 0 <= t < nsam ->
  let lag := t - if shift then nsam / 2 else 0 in
  n1 - optncr nsam <= lag <= optncr nsam - n2 ->
  corr junkr junkc data1 data2 out nrec nsam dt shift (i * nsam + t) = (dt * true_correlation nsam (padded data1 nsam i) (padded data2 nsam i) lag)%R.
Proof.
  intros Hs Hdt Hi H1 H2 Ht lag Hl. pose proof (C70_correlation junkr junkc data1 data2 out nrec nsam dt shift Hs Hdt) as [C _]. cbv zeta in C. rewrite C by assumption. clear C. fold lag. f_equal.
  assert (0 <= nsam / 2 < nsam) by (split; [apply Z.div_pos; lia|apply Z.div_lt; lia]). generalize dependent (optncr nsam). intros n Hs Hl.
  rewrite (corr_parts n _ _ n1 n2).
  - unfold true_correlation. rewrite (Sum_split nsam n) by lia. rewrite (Sum_zero (n - nsam)); [ring|]. intros j Hj. unfold padded at 2. replace (nsam + j <? nsam) with false by lia. ring.
  - lia.
  - intros j Hj. unfold padded. destruct (Z.ltb_spec j nsam); [|reflexivity]. apply H1; lia.
  - intros j Hj. unfold padded. destruct (Z.ltb_spec j nsam); [|reflexivity]. apply H2; lia.
  - exact Hl.
  - unfold lag in *. destruct shift; lia.
Qed.
Print Assumptions C70_no_wrap_around.
Example C70_nonvacuous junkr junkc out : corr junkr junkc (spike 2) (spike 1) out 1 4 3 true (0 * 4 + 3) = 3%R.
Proof.
  rewrite (C70_no_wrap_around junkr junkc (spike 2) (spike 1) out 1 4 3 true 3 2 0 3).
  2:{ rewrite optncr_4. lia. } 2:{ lra. } 2:{ lia. } 2:{ intros j Hj. unfold spike. now replace (0 * 4 + j =? 2) with false by lia. } 2:{ intros j Hj. unfold spike. now replace (0 * 4 + j =? 1) with false by lia. } 2:{ lia. } 2:{ rewrite optncr_4. change (4 / 2) with 2. lia. }
  cbv -[Rplus Rmult IZR].
  lra.
Qed.
(** Power: the even part of the correlation *)
Theorem C70_power junkr junkc data1 data2 out nrec nsam dt shift : 1 <= nsam <= optncr nsam -> dt <> 0%R ->
  let r := power junkr junkc data1 data2 out nrec nsam dt shift in
  let c := fun i => correlation (optncr nsam) (padded data1 nsam i) (padded data2 nsam i) in
  (forall i t, 0 <= i < nrec -> 0 <= t < nsam -> let l := t - if shift then nsam / 2 else 0 in r (i * nsam + t) = (dt * ((c i l + c i (- l)%Z) / 2))%R) /\
  (forall x, ~ 0 <= x < nrec * nsam -> r x = out x).
Proof.
  intros Hs Hdt. cbv zeta. unfold power, spectral. generalize dependent (optncr nsam). intros n Hs.
  set (c := fun i => correlation n (padded data1 nsam i) (padded data2 nsam i)). set (e := fun i t => ((c i t + c i ((- t) mod n)%Z) / 2)%R).
  match goal with |- context [spectral_n _ _ n ?o _ _ _ _ _ _ _] => destruct (spectral_ok junkr junkc o data1 data2 out nrec nsam dt nsam n (fun i t => e i ((t - if shift then nsam / 2 else 0) mod n)) Hs ltac:(lia)) as [S1 S2] end.
  - intros c1 c2 H1 H2 i k Hi Hk. cbv zeta.
    set (Q := pointwise _ _ _). assert (HQ : forall i k, 0 <= i < nrec -> 0 <= k <= n / 2 -> Q (i * (n / 2 + 1) + k) = spectrum n (e i) k).
    { clear i k Hi Hk. intros i k Hi Hk. unfold Q, e. rewrite pointwise_ok by (apply cell; lia). rewrite spectrum_even by lia. unfold c. rewrite spectrum_correlation by lia. rewrite <- H1, <- H2 by assumption. destruct (c1 (i * (n / 2 + 1) + k)), (c2 (i * (n / 2 + 1) + k)). unfold cmul, conj. cbn [fst snd]. f_equal; ring. }
    clearbody Q. pose proof (shifted shift dt n nsam nrec Q e Hdt ltac:(lia) HQ i k Hi Hk) as E. destruct shift; [|exact E].
    rewrite delay_power_ok; [rewrite delay_ok in E by (assumption || lia); exact E|assumption|lia|assumption|assumption|]. rewrite HQ by assumption. unfold e. rewrite spectrum_even by lia. reflexivity.
  - split; [|exact S2]. intros i t Hi Ht. rewrite S1 by assumption. unfold e, c. cbv beta. rewrite !correlation_mod by lia. set (l := t - _). f_equal. f_equal. f_equal. rewrite <- (correlation_mod n _ _ (- (l mod n))) by lia. rewrite <- (correlation_mod n _ _ (- l)) by lia. f_equal. rewrite <- (Z.sub_0_l (l mod n)), <- (Z.sub_0_l l). apply Zminus_mod_idemp_r.
Qed.
Print Assumptions C70_power.
(** cor3 writes nsam/2 samples: the even part of the convolution (not of the correlation) *)
Theorem C70_cor3 junkr junkc data1 data2 out nrec nsam dt : 1 <= nsam <= optncr nsam ->
  let r := corr3 junkr junkc data1 data2 out nrec nsam dt in
  let c := fun i => convolution (optncr nsam) (padded data1 nsam i) (padded data2 nsam i) in
  (forall i t, 0 <= i < nrec -> 0 <= t < nsam / 2 -> r (i * (nsam / 2) + t) = (dt * ((c i t + c i (- t)%Z) / 2))%R) /\
  (forall x, ~ 0 <= x < nrec * (nsam / 2) -> r x = out x).
Proof.
  intros Hs. cbv zeta. assert (Hh : 0 <= nsam / 2 < nsam) by (split; [apply Z.div_pos; lia|apply Z.div_lt; lia]). unfold corr3, spectral. generalize dependent (optncr nsam). intros n Hs.
  set (c := fun i => convolution n (padded data1 nsam i) (padded data2 nsam i)).
  match goal with |- context [spectral_n _ _ n ?o _ _ _ _ _ _ _] => destruct (spectral_ok junkr junkc o data1 data2 out nrec nsam dt (nsam / 2) n (fun i t => ((c i t + c i ((- t) mod n)%Z) / 2)%R) Hs ltac:(lia)) as [S1 S2] end.
  - intros c1 c2 H1 H2 i k Hi Hk. cbv zeta. rewrite pointwise_ok by (apply cell; lia). rewrite spectrum_even by lia. unfold c. rewrite spectrum_convolution by lia. rewrite <- H1, <- H2 by assumption. destruct (c1 (i * (n / 2 + 1) + k)), (c2 (i * (n / 2 + 1) + k)). unfold cmul. cbn [fst snd]. f_equal; ring.
  - split; [|exact S2]. intros i t Hi Ht. rewrite S1 by assumption. unfold c. cbv beta. rewrite convolution_mod by lia. reflexivity.
Qed.
Print Assumptions C70_cor3.
(** The documentation of cor3 ("correlation add non-causal to causal part") does not hold: the correlation of a
    spike with itself is one at lag zero; cor3 gives zero there and a value at twice the time of the spike. *)
Lemma optncr_8 : optncr 8 = 8. Proof. exact (optncr_power 3 ltac:(lia)). Qed.
Theorem C70_cor3_refuted junkr junkc out dt : 
  corr3 junkr junkc (spike 1) (spike 1) out 1 8 dt 0 = 0%R /\ corr3 junkr junkc (spike 1) (spike 1) out 1 8 dt 2 = (dt / 2)%R /\
  true_correlation 8 (spike 1) (spike 1) 0 = 1%R /\ true_correlation 8 (spike 1) (spike 1) 2 = 0%R /\ true_correlation 8 (spike 1) (spike 1) (-2) = 0%R.
Proof.
  pose proof (C70_cor3 junkr junkc (spike 1) (spike 1) out 1 8 dt ltac:(rewrite optncr_8; lia)) as [C _]. cbv zeta in C. rewrite optncr_8 in C. change (8 / 2) with 4 in C.
  pose proof (C 0 0 ltac:(lia) ltac:(lia)) as E0. pose proof (C 0 2 ltac:(lia) ltac:(lia)) as E2. clear C. replace (0 * 4 + 0) with 0 in E0 by reflexivity. replace (0 * 4 + 2) with 2 in E2 by reflexivity. rewrite E0, E2. clear.
  repeat match goal with |- context [convolution ?n ?a ?b ?t] => let v := fresh in set (v := convolution n a b t); cbv -[Rplus Rmult IZR] in v; unfold v; clear v end.
  conjs; try (cbv -[Rplus Rmult IZR]; lra); lra.
Qed.
Print Assumptions C70_cor3_refuted.
(** Without the shift negative lags are behind the end of the output when the transform is longer than the traces:
    the correlation of a spike at 0 with one at 1 is not zero, but all the samples written are. *)
Theorem C70_negative_lags_refuted junkr junkc out nsam dt : 2 <= nsam < optncr nsam -> dt <> 0%R ->
  (forall t, 0 <= t < nsam -> corr junkr junkc (spike 0) (spike 1) out 1 nsam dt false t = 0%R) /\ true_correlation nsam (spike 0) (spike 1) (-1) = 1%R.
Proof.
  intros Hs Hdt. split.
  - intros t Ht. pose proof (C70_correlation junkr junkc (spike 0) (spike 1) out 1 nsam dt false ltac:(lia) Hdt) as [C _]. cbv zeta in C. specialize (C 0 t ltac:(lia) Ht). rewrite Z.sub_0_r in C. replace (0 * nsam + t) with t in C by ring. rewrite C. clear C.
    generalize dependent (optncr nsam). intros n Hs. unfold correlation. rewrite Sum_zero; [ring|]. intros j Hj. unfold padded, spike. destruct (Z.eq_dec j 1) as [->|]; [|destruct (j <? nsam); [replace (0 * nsam + j =? 1) with false by lia|]; ring].
    rewrite Z.mod_small by lia. destruct (1 + t <? nsam); [replace (0 * nsam + (1 + t) =? 0) with false by lia|]; ring.
  - unfold true_correlation. rewrite (Sum_single _ _ 1); [cbn; unfold spike; cbn; ring|lia|]. intros j Hj N. unfold spike at 2. replace (j =? 1) with false by lia. ring.
Qed.
Print Assumptions C70_negative_lags_refuted.
Example C70_negative_lags_nonvacuous : 2 <= 17 < optncr 17. 
Proof.
  split; [lia|]. destruct (PropertiesFftSize.C29_small 17 ltac:(lia)) as [_ L]. destruct (PropertiesFftSize.C29_usable 17 ltac:(lia)) as [_ [(h & _ & E)|(k & E)]]; [lia|].
  generalize dependent (optncr 17). intros n L E. assert (n <> 17); [|lia]. intros ->. destruct (Z.lt_ge_cases k 0); [rewrite Z.pow_neg_r in E; lia|].
  destruct (Z.lt_ge_cases k 5) as [Hk|Hk]; [assert (C : k = 0 \/ k = 1 \/ k = 2 \/ k = 3 \/ k = 4) by lia; destruct C as [-> | [-> | [-> | [-> | ->]]]]; discriminate E|].
  pose proof (Z.pow_le_mono_r 2 5 k ltac:(lia) Hk). change (2 ^ 5) with 32 in *. lia.
Qed.
