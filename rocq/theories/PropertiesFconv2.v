(** Properties of fconv: deconvolution and coherence (C71, C72). *)
From Coq Require Import ZArith Reals List Lia Lra Bool.
From Verif Require Import ListAux FdKernels FdProofs FdOutputProofs Marchenko MarchenkoProofs KissFft FftSize PropertiesFftSize FftSpec FftAux FftInverse LibFft PropertiesDft PropertiesRealFft FftLayout PropertiesFftLayout Fconv FconvSpec FconvProofs PropertiesFconv.
Import ListNotations.
Local Open Scope Z_scope.

Lemma fold_max (f : Z -> R) l : forall m, let r := fold_left (fun m j => Rmax (f j) m) l m in
  (m <= r)%R /\ (forall j, In j l -> (f j <= r)%R) /\ (r = m \/ exists j, In j l /\ r = f j).
Proof.
  induction l as [|a l IH]; intros m; cbn [fold_left]; cbv zeta; [split; [lra|split; [intros j []|now left]]|]. destruct (IH (Rmax (f a) m)) as (A & B & C). pose proof (Rmax_l (f a) m). pose proof (Rmax_r (f a) m). split; [lra|]. split.
  - intros j [->|I]; [lra|]. apply B, I.
  - destruct C as [C|(j & I & C)]; [|right; exists j; split; [now right|exact C]]. rewrite C. destruct (Rle_dec (f a) m) as [L|L]; [left; apply Rmax_right; lra|]. right. exists a. split; [now left|]. apply Rmax_left. lra.
Qed.
Lemma largest_is (f : Z -> Z -> R) den nrec n : 1 <= nrec -> 0 <= n / 2 -> (forall i k, 0 <= i < nrec -> 0 <= k <= n / 2 -> den (i * (n / 2 + 1) + k) = f i k) -> (forall i k, (0 <= f i k)%R) ->
  is_largest (largest den (nrec * (n / 2 + 1))) f nrec n.
Proof.
  intros Hr Hn H P. unfold largest. destruct (fold_max den (range 0 (nrec * (n / 2 + 1))) 0%R) as (A & B & C). set (r := fold_left _ _ _) in *. clearbody r.
  assert (B' : forall i k, 0 <= i < nrec -> 0 <= k <= n / 2 -> (f i k <= r)%R). { intros i k Hi Hk. rewrite <- H by assumption. apply B. apply in_range. apply cell; lia. }
  split; [exact B'|]. destruct C as [->|(j & I & ->)].
  - exists 0, 0. split; [lia|]. split; [lia|]. specialize (B' 0 0 ltac:(lia) ltac:(lia)). specialize (P 0 0). lra.
  - apply in_range in I. exists (j / (n / 2 + 1)), (j mod (n / 2 + 1)). pose proof (Z.mod_pos_bound j (n / 2 + 1) ltac:(lia)). pose proof (Z.div_mod j (n / 2 + 1) ltac:(lia)) as D.
    assert (0 <= j / (n / 2 + 1) < nrec) by (split; [apply Z.div_pos; lia|apply Z.div_lt_upper_bound; lia]). split; [assumption|]. split; [lia|]. rewrite <- H by lia. f_equal. lia.
Qed.
Lemma largest_unique f nrec n a b : is_largest a f nrec n -> is_largest b f nrec n -> a = b.
Proof. intros [A1 (i & k & Hi & Hk & A2)] [B1 (i' & k' & Hi' & Hk' & B2)]. specialize (A1 i' k' Hi' Hk'). specialize (B1 i k Hi Hk). lra. Qed.
Lemma energy_pos z : (0 <= energy z)%R.
Proof. unfold energy. nra. Qed.

(** ** C71 *)
(** Deconvolution: the written trace is dt times a trace whose spectrum is F1 conj(F2) / (|F2|^2 + reps max|F2|^2 + eps),
    with the maximum over all frequencies and traces of the gather. *)
Theorem C71_deconvolution junkr junkc data1 data2 out nrec nsam dt eps reps shift : 1 <= nsam <= optncr nsam -> dt <> 0%R -> 1 <= nrec ->
  let r := deconv junkr junkc data1 data2 out nrec nsam dt eps reps shift in
  let n := optncr nsam in
  let F1 := fun i => spectrum n (padded data1 nsam i) in
  let F2 := fun i => spectrum n (padded data2 nsam i) in
  (exists M q, is_largest M (fun i k => energy (F2 i k)) nrec n /\
    (forall i k, 0 <= i < nrec -> 0 <= k <= n / 2 -> (energy (F2 i k) + (reps * M + eps))%R <> 0%R ->
       scaled (energy (F2 i k) + (reps * M + eps)) (spectrum n (q i) k) = times (F1 i k) (conjugate (F2 i k))) /\
    (forall i t, 0 <= i < nrec -> 0 <= t < nsam -> r (i * nsam + t) = (dt * q i ((t - if shift then nsam / 2 else 0) mod n)%Z)%R)) /\
  (forall x, ~ 0 <= x < nrec * nsam -> r x = out x).
Proof.
  intros Hs Hdt Hr. cbv zeta. unfold deconv, spectral. generalize dependent (optncr nsam). intros n Hs.
  assert (Hh : 0 <= n / 2) by (apply Z.div_pos; lia).
  set (F1 := fun i => spectrum n (padded data1 nsam i)). set (F2 := fun i => spectrum n (padded data2 nsam i)).
  set (M := largest (fun x => energy (F2 (x / (n / 2 + 1)) (x mod (n / 2 + 1)))) (nrec * (n / 2 + 1))).
  assert (HM : is_largest M (fun i k => energy (F2 i k)) nrec n).
  { apply largest_is; [exact Hr|exact Hh| |intros; apply energy_pos]. intros i k Hi Hk. rewrite (Z.add_comm (i * _)), Z.div_add, Z.mod_add, Z.div_small, Z.mod_small by lia. now rewrite Z.add_0_l. }
  clearbody M.
  set (D := fun i k => scaled (/ (energy (F2 i k) + (reps * M + eps))) (times (F1 i k) (conjugate (F2 i k)))).
  set (q := fun i t => (/ IZR n * fst (dft n 1 (hermitian n (D i)) t))%R).
  assert (Hq : forall i k, 0 <= k <= n / 2 -> D i k = spectrum n (q i) k).
  { intros i k Hk. destruct (spectrum_ends n ltac:(lia) (padded data1 nsam i)) as [A1 A2]. destruct (spectrum_ends n ltac:(lia) (padded data2 nsam i)) as [B1 B2].
    apply (spectrum_exists n ltac:(lia) (D i)); [|intros E|exact Hk]; unfold D, scaled, times, conjugate, F1, F2; cbn [fst snd]; [rewrite A1, B1|rewrite A2, B2 by exact E]; ring. }
  match goal with |- context [spectral_n _ _ n ?o _ _ _ _ _ _ _] => destruct (spectral_ok junkr junkc o data1 data2 out nrec nsam dt nsam n (fun i t => q i ((t - if shift then nsam / 2 else 0) mod n)) Hs ltac:(lia)) as [S1 S2] end.
  - intros c1 c2 H1 H2 i k Hi Hk. cbv zeta. apply (shifted shift dt n nsam nrec _ q); [assumption|lia| |assumption|assumption].
    clear i k Hi Hk. intros i k Hi Hk. rewrite pointwise_ok by (apply cell; lia). rewrite <- Hq by assumption. unfold D.
    match goal with |- context [largest ?d ?m] => replace (largest d m) with M end.
    2:{ apply (largest_unique _ _ _ _ _ HM). apply largest_is; [exact Hr|exact Hh| |intros; apply energy_pos]. intros i' k' Hi' Hk'. rewrite H2 by assumption. fold (F2 i'). unfold energy. now destruct (F2 i' k'). }
    rewrite H1, H2 by assumption. fold (F1 i) (F2 i). destruct (F1 i k) as [a b], (F2 i k) as [c d]. unfold scaled, times, conjugate, energy. cbn [fst snd]. unfold Rdiv. destruct (Rle_dec (Rabs d) (Rabs c)); f_equal; ring.
  - split; [|exact S2]. exists M, q. split; [exact HM|]. split; [|exact S1]. intros i k Hi Hk Nz. rewrite <- Hq by assumption. unfold D.
    fold (F1 i) (F2 i) in *. destruct (times (F1 i k) (conjugate (F2 i k))) as [u v].
    revert Nz. generalize (energy (F2 i k) + (reps * M + eps))%R. intros x Nz. unfold scaled. cbn [fst snd]. f_equal; field; exact Nz.
Qed.
Print Assumptions C71_deconvolution.

Lemma spectrum_unique n a b : 1 <= n -> (forall k, 0 <= k <= n / 2 -> spectrum n a k = spectrum n b k) -> forall t, 0 <= t < n -> a t = b t.
Proof.
  intros Hn H t Ht. pose proof (back n Hn a (spectrum n a) (fun _ _ => eq_refl) t Ht) as A. pose proof (back n Hn b (spectrum n a) H t Ht) as B. rewrite A in B. apply (Rmult_eq_reg_l (IZR n)); [exact B|]. apply not_0_IZR. lia.
Qed.
(** Deconvolution is the inverse of convolution when the spectrum of the second trace has no zeroes and no
    stabilisation is used: the result, convolved with the second trace, is the first trace (times dt). *)
Theorem C71_inverse junkr junkc data1 data2 out nrec nsam dt : 1 <= nsam -> optncr nsam = nsam -> dt <> 0%R ->
  (forall i k, 0 <= i < nrec -> 0 <= k <= nsam / 2 -> spectrum nsam (fun t => data2 (i * nsam + t)) k <> (0, 0)%R) ->
  let r := deconv junkr junkc data1 data2 out nrec nsam dt 0 0 false in
  forall i t, 0 <= i < nrec -> 0 <= t < nsam -> convolution nsam (fun j => r (i * nsam + j)) (fun j => data2 (i * nsam + j)) t = (dt * data1 (i * nsam + t)%Z)%R.
Proof.
  intros Hs En Hdt Nz r i t Hi Ht. pose proof (C71_deconvolution junkr junkc data1 data2 out nrec nsam dt 0 0 false ltac:(rewrite En; lia) Hdt ltac:(lia)) as [(M & q & _ & Sp & V) _]. fold r in V. cbv zeta in Sp, V. rewrite !En in *. clear En. clearbody r.
  assert (P : forall d k, spectrum nsam (padded d nsam i) k = spectrum nsam (fun t => d (i * nsam + t)) k).
  { intros d k. apply spectrum_ext. intros j Hj. unfold padded. now replace (j <? nsam) with true by lia. }
  assert (Q : forall k, 0 <= k <= nsam / 2 -> spectrum nsam (convolution nsam (q i) (fun j => data2 (i * nsam + j))) k = spectrum nsam (fun j => data1 (i * nsam + j)) k).
  { intros k Hk. rewrite spectrum_convolution by lia. specialize (Sp i k Hi Hk). specialize (Nz i k Hi Hk). rewrite !P in Sp. 
    destruct (spectrum nsam (q i) k) as [u v], (spectrum nsam (fun j => data2 (i * nsam + j)) k) as [c d], (spectrum nsam (fun j => data1 (i * nsam + j)) k) as [a b].
    assert (E0 : (c * c + d * d <> 0)%R). { intros E. apply Nz. assert (c = 0)%R by nra. assert (d = 0)%R by nra. now subst. }
    unfold scaled, times, conjugate, energy, cmul in *. cbn [fst snd] in *. assert (E1 : (c * c + d * d + (0 * M + 0) <> 0)%R) by lra. specialize (Sp E1). injection Sp as S1 S2.
    apply C_eq; cbn [fst snd]; apply (Rmult_eq_reg_l (c * c + d * d)); try exact E0.
    - transitivity (((c * c + d * d + (0 * M + 0)) * u) * c - ((c * c + d * d + (0 * M + 0)) * v) * d)%R; [ring|]. rewrite S1, S2. ring.
    - transitivity (((c * c + d * d + (0 * M + 0)) * u) * d + ((c * c + d * d + (0 * M + 0)) * v) * c)%R; [ring|]. rewrite S1, S2. ring. }
  pose proof (spectrum_unique nsam _ _ ltac:(lia) Q t Ht) as E. cbv beta in E. rewrite <- E. unfold convolution. rewrite <- Sum_scale. apply Sum_ext. intros j Hj. rewrite V by lia. rewrite Z.sub_0_r, Z.mod_small by lia. ring.
Qed.
Print Assumptions C71_inverse.
Lemma spectrum_spike n k : 1 <= n -> spectrum n (spike 0) k = (1, 0)%R.
Proof.
  intros Hn. unfold spectrum, dft. rewrite (total_single _ _ 0); [|lia|].
  - rewrite Z.mul_0_l, root_0. unfold times, real_values, spike, c1. cbn. f_equal; ring.
  - intros i Hi N. unfold times, real_values, spike, c0. replace (i =? 0) with false by lia. cbn [fst snd]. f_equal; ring.
Qed.
Example C71_nonvacuous junkr junkc data1 out t : 0 <= t < 4 ->
  convolution 4 (fun j => deconv junkr junkc data1 (spike 0) out 1 4 2 0 0 false (0 * 4 + j)) (fun j => spike 0 (0 * 4 + j)) t = (2 * data1 (0 * 4 + t)%Z)%R.
Proof.
  intros Ht. apply (C71_inverse junkr junkc data1 (spike 0) out 1 4 2 ltac:(lia) optncr_4 ltac:(lra)); [|lia|exact Ht]. intros i k Hi Hk. assert (i = 0) by lia. subst i. change (fun t => spike 0 (0 * 4 + t)) with (spike 0). rewrite spectrum_spike by lia. intros E. injection E. lra.
Qed.

(** ** C72 *)
Lemma fold_max' (f : Z -> R) l m : fold_left (fun m j => Rmax m (f j)) l m = fold_left (fun m j => Rmax (f j) m) l m.
Proof. apply fold_left_ext. intros. apply Rmax_comm. Qed.
Lemma row_largest (f : Z -> R) n : 0 <= n / 2 -> (forall k, (0 <= f k)%R) ->
  is_largest (fold_left (fun m j => Rmax m (f j)) (range 0 (n / 2 + 1)) 0%R) (fun _ => f) 1 n.
Proof.
  intros Hn P. rewrite fold_max'. pose proof (largest_is (fun _ => f) f 1 n ltac:(lia) Hn) as L. unfold largest in L. replace (1 * (n / 2 + 1)) with (n / 2 + 1) in L by ring. apply L; [|intros; apply P]. intros i k Hi Hk. assert (i = 0) by lia. subst. reflexivity.
Qed.
Lemma fst_fold (adr : Z -> Z) (v : Z -> C) (W : Z -> R) l : forall s : (Z -> C) * R, fst (fold_left (fun s j => (upd (fst s) (adr j) (v j), W j)) l s) = fold_left (fun q j => upd q (adr j) (v j)) l (fst s).
Proof. induction l as [|a l IH]; intros s; cbn [fold_left]; [reflexivity|]. now rewrite IH. Qed.
Lemma fst_fold2 (adr : Z -> Z -> Z) (v : Z -> Z -> C) (W : Z -> Z -> R) B A : forall s : (Z -> C) * R,
  fst (fold_left (fun s i => fold_left (fun s j => (upd (fst s) (adr i j) (v i j), W i j)) B s) A s) = fold_left (fun q i => fold_left (fun q j => upd q (adr i j) (v i j)) B q) A (fst s).
Proof. induction A as [|a A IH]; intros s; cbn [fold_left]; [reflexivity|]. now rewrite IH, fst_fold. Qed.
(** Coherence: the cross-spectrum of every trace is divided by its amplitude where that is above epsmax times the
    largest one, and by the amplitude plus the stabilisation where it is below; scl0 is never used, provided that no
    amplitude equals epsmax times the largest one. *)
Theorem C72_coherence junkr junkc scl0 data1 data2 out nrec nsam dt epsmax eps reps shift : 1 <= nsam <= optncr nsam -> dt <> 0%R ->
  let r := cohr junkr junkc scl0 data1 data2 out nrec nsam dt epsmax eps reps shift in
  let n := optncr nsam in
  let F1 := fun i => spectrum n (padded data1 nsam i) in
  let F2 := fun i => spectrum n (padded data2 nsam i) in
  let d := fun i k => (sqrt (energy (F1 i k)) * sqrt (energy (F2 i k)))%R in
  (forall i m k, 0 <= i < nrec -> is_largest m (fun _ => d i) 1 n -> 0 <= k <= n / 2 -> d i k = (epsmax * m)%R -> d i k = 0%R) ->
  (exists q, (forall i m k, 0 <= i < nrec -> is_largest m (fun _ => d i) 1 n -> 0 <= k <= n / 2 ->
       spectrum n (q i) k = scaled (whitening epsmax eps reps m (d i k)) (times (F1 i k) (conjugate (F2 i k)))) /\
    (forall i t, 0 <= i < nrec -> 0 <= t < nsam -> r (i * nsam + t) = (dt * q i ((t - if shift then nsam / 2 else 0) mod n)%Z)%R)) /\
  (forall x, ~ 0 <= x < nrec * nsam -> r x = out x).
Proof.
  intros Hs Hdt. cbv zeta. unfold cohr, spectral. generalize dependent (optncr nsam). intros n Hs.
  assert (Hh : 0 <= n / 2) by (apply Z.div_pos; lia).
  set (F1 := fun i => spectrum n (padded data1 nsam i)). set (F2 := fun i => spectrum n (padded data2 nsam i)).
  change (fun i k => (sqrt (energy (spectrum n (padded data1 nsam i) k)) * sqrt (energy (spectrum n (padded data2 nsam i) k)))%R) with (fun i k => (sqrt (energy (F1 i k)) * sqrt (energy (F2 i k)))%R).
  set (d := fun i k => (sqrt (energy (F1 i k)) * sqrt (energy (F2 i k)))%R). intros Nd.
  change (forall i m k, 0 <= i < nrec -> is_largest m (fun _ => d i) 1 n -> 0 <= k <= n / 2 -> d i k = (epsmax * m)%R -> d i k = 0%R) in Nd.
  assert (Pd : forall i k, (0 <= d i k)%R) by (intros; unfold d; apply Rmult_le_pos; apply sqrt_pos).
  set (m := fun i => fold_left (fun m j => Rmax m (d i j)) (range 0 (n / 2 + 1)) 0%R).
  assert (Hm : forall i, is_largest (m i) (fun _ => d i) 1 n) by (intros; apply row_largest; auto).
  set (D := fun i k => scaled (whitening epsmax eps reps (m i) (d i k)) (times (F1 i k) (conjugate (F2 i k)))).
  set (q := fun i t => (/ IZR n * fst (dft n 1 (hermitian n (D i)) t))%R).
  assert (Hq : forall i k, 0 <= k <= n / 2 -> D i k = spectrum n (q i) k).
  { intros i k Hk. destruct (spectrum_ends n ltac:(lia) (padded data1 nsam i)) as [A1 A2]. destruct (spectrum_ends n ltac:(lia) (padded data2 nsam i)) as [B1 B2].
    apply (spectrum_exists n ltac:(lia) (D i)); [|intros E|exact Hk]; unfold D, scaled, times, conjugate, F1, F2; cbn [fst snd]; [rewrite A1, B1|rewrite A2, B2 by exact E]; ring. }
  match goal with |- context [spectral_n _ _ n ?o _ _ _ _ _ _ _] => destruct (spectral_ok junkr junkc o data1 data2 out nrec nsam dt nsam n (fun i t => q i ((t - if shift then nsam / 2 else 0) mod n)) Hs ltac:(lia)) as [S1 S2] end.
  - intros c1 c2 H1 H2 i k Hi Hk. cbv zeta.
    assert (Hd : forall i k, 0 <= i < nrec -> 0 <= k <= n / 2 -> (let '(p1r, p1i) := c1 (k + i * (n / 2 + 1)) in let '(p2r, p2i) := c2 (k + i * (n / 2 + 1)) in (sqrt (p1r * p1r + p1i * p1i) * sqrt (p2r * p2r + p2i * p2i))%R) = d i k).
    { intros i' k' Hi' Hk'. rewrite (Z.add_comm k'). rewrite H1, H2 by assumption. fold (F1 i') (F2 i'). unfold d, energy. now destruct (F1 i' k'), (F2 i' k'). }
    match goal with |- context [fold_left ?g (range 0 nrec) (junkc, scl0)] => set (G := g) end.
    assert (E : fold_left G (range 0 nrec) (junkc, scl0) = fold_left (fun s i => fold_left (fun s j => (upd (fst s) (i * (n / 2 + 1) + j) (D i j), whitening epsmax eps reps (m i) (d i j))) (range 0 (n / 2 + 1)) s) (range 0 nrec) (junkc, scl0)).
    { apply fold_left_ext. intros s i' Hi'. apply in_range in Hi'. unfold G.
      replace (fold_left (fun m0 j => Rmax m0 _) (range 0 (n / 2 + 1)) 0%R) with (m i') by (unfold m; apply fold_left_ext; intros a j Hj; apply in_range in Hj; rewrite Hd by lia; reflexivity).
      apply fold_left_ext. intros [Q scl] j Hj. apply in_range in Hj. rewrite Hd by lia.
      assert (W : (if Rlt_dec (epsmax * m i') (d i' j) then (1 / d i' j)%R else if Rlt_dec (d i' j) (epsmax * m i') then (if Req_EM_T (d i' j) 0 then 1 else 1 / (d i' j + (reps * m i' + eps)))%R else if Req_EM_T (d i' j) 0 then 1%R else scl) = whitening epsmax eps reps (m i') (d i' j)).
      { unfold whitening, Rdiv. rewrite !Rmult_1_l. destruct (Rlt_dec (epsmax * m i') (d i' j)); [reflexivity|]. destruct (Rlt_dec (d i' j) (epsmax * m i')); [destruct (Req_EM_T (d i' j) 0); reflexivity|]. destruct (Req_EM_T (d i' j) 0) as [|N]; [reflexivity|]. exfalso. apply N. apply (Nd i' (m i') j); [lia|apply Hm|lia|lra]. }
      rewrite W. rewrite H1, H2 by lia. fold (F1 i') (F2 i'). unfold D. destruct (F1 i' j) as [a b], (F2 i' j) as [c e]. unfold scaled, times, conjugate. cbn [fst snd]. f_equal. f_equal. f_equal; ring. }
    match type of E with _ = ?rhs => set (P := rhs) in E end.
    assert (E2 : fst P = fold_left (fun c i => fold_left (fun c k => upd c (i * (n / 2 + 1) + k) (D i k)) (range 0 (n / 2 + 1)) c) (range 0 nrec) junkc) by (unfold P; apply (fst_fold2 (fun i j => i * (n / 2 + 1) + j) D)).
    clearbody P. rewrite E. clear E. destruct P as [Q scl]. cbn [fst] in E2.
    apply (shifted shift dt n nsam nrec Q q); [assumption|lia| |assumption|assumption].
    clear i k Hi Hk. intros i k Hi Hk. rewrite <- Hq by assumption. rewrite E2. destruct (grid (fun i k => i * (n / 2 + 1) + k) (fun i k _ => D i k) (range 0 nrec) (range 0 (n / 2 + 1)) (range_NoDup _ _) (range_NoDup _ _)) with (m := junkc) as [Gr _].
    + intros a b a' b' Ha Hb Ha' Hb' E'. rewrite in_range in *. apply (row_inj (n / 2 + 1) (n / 2 + 1)); lia.
    + apply Gr; apply in_range; lia.
  - split; [|exact S2]. exists q. split; [|exact S1]. intros i m' k Hi Hm' Hk. rewrite <- Hq by assumption. unfold D. now rewrite (largest_unique _ _ _ _ _ Hm' (Hm i)).
Qed.
Print Assumptions C72_coherence.
(** Where the amplitude is large enough only the phase is left *)
Theorem C72_unit_amplitude z1 z2 epsmax eps reps m : let d := (sqrt (energy z1) * sqrt (energy z2))%R in (0 <= epsmax * m < d)%R ->
  energy (scaled (whitening epsmax eps reps m d) (times z1 (conjugate z2))) = 1%R.
Proof.
  intros d Hd. unfold whitening. destruct (Rlt_dec (epsmax * m) d) as [_|N]; [|lra].
  assert (E : (d * d = energy z1 * energy z2)%R). { unfold d. pose proof (sqrt_sqrt _ (energy_pos z1)) as A. pose proof (sqrt_sqrt _ (energy_pos z2)) as B. transitivity ((sqrt (energy z1) * sqrt (energy z1)) * (sqrt (energy z2) * sqrt (energy z2)))%R; [ring|]. now rewrite A, B. }
  clearbody d. unfold energy, scaled, times, conjugate in *. destruct z1 as [a b], z2 as [u v]. cbn [fst snd] in *.
  transitivity (/ d * / d * ((a * a + b * b) * (u * u + v * v)))%R; [ring|]. rewrite <- E. field. lra.
Qed.
Print Assumptions C72_unit_amplitude.
Example C72_nonvacuous junkr junkc scl0 out : exists q, forall t, 0 <= t < 4 -> cohr junkr junkc scl0 (spike 0) (spike 0) out 1 4 2 (1 / 2) 0 0 false (0 * 4 + t) = (2 * q t)%R /\ (forall k, 0 <= k <= 2 -> spectrum 4 q k = (1, 0)%R).
Proof.
  destruct (C72_coherence junkr junkc scl0 (spike 0) (spike 0) out 1 4 2 (1 / 2) 0 0 false ltac:(rewrite optncr_4; lia) ltac:(lra)) as [(q & A & B) _].
  - intros i m k Hi. assert (i = 0) by lia. subst i. rewrite optncr_4. intros [L1 (i & j & Hi' & Hj & L2)] Hk E.
    assert (P : forall k, spectrum 4 (padded (spike 0) 4 0) k = (1, 0)%R) by (intros; rewrite (spectrum_ext _ _ (spike 0)); [apply spectrum_spike; lia|]; intros u Hu; unfold padded; now replace (u <? 4) with true by lia).
    rewrite !P in *. unfold energy in *. cbn [fst snd] in *. replace (1 * 1 + 0 * 0)%R with 1%R in * by ring. rewrite !sqrt_1 in *. lra.
  - exists (q 0). intros t Ht. rewrite (B 0 t ltac:(lia) Ht). rewrite optncr_4 in *. rewrite Z.sub_0_r, Z.mod_small by lia. split; [reflexivity|]. intros k Hk. change (4 / 2) with 2 in A.
    assert (P : forall k, spectrum 4 (padded (spike 0) 4 0) k = (1, 0)%R) by (intros; rewrite (spectrum_ext _ _ (spike 0)); [apply spectrum_spike; lia|]; intros u Hu; unfold padded; now replace (u <? 4) with true by lia).
    assert (S1 : forall k, (sqrt (energy (spectrum 4 (padded (spike 0) 4 0) k)) * sqrt (energy (spectrum 4 (padded (spike 0) 4 0) k)) = 1)%R) by (intros; rewrite P; unfold energy; cbn [fst snd]; replace (1 * 1 + 0 * 0)%R with 1%R by ring; rewrite sqrt_1; ring).
    rewrite (A 0 1%R k ltac:(lia)); [|split; [intros; rewrite S1; lra|exists 0, 0; split; [lia|split; [vm_compute; split; congruence|apply S1]]]|exact Hk].
    rewrite S1, P. unfold whitening. destruct (Rlt_dec (1 / 2 * 1) 1) as [_|N]; [|lra]. unfold scaled, times, conjugate. cbn [fst snd]. f_equal; field.
Qed.
(** An amplitude equal to epsmax times the largest one takes the factor of the frequency before it, or one that was
    never set: the coherence of a spike with itself, epsmax = 1, is any number. *)
Theorem C72_unset_factor_refuted junkr junkc scl0 out dt : cohr junkr junkc scl0 (spike 0) (spike 0) out 1 4 dt 1 0 0 false 0 = (dt * scl0)%R.
Proof.
  unfold cohr, spectral. rewrite optncr_4.
  match goal with |- context [spectral_n _ _ 4 ?o _ _ _ _ _ _ _] => destruct (spectral_ok junkr junkc o (spike 0) (spike 0) out 1 4 dt 4 4 (fun i t => scl0 * spike 0 t)%R ltac:(lia) ltac:(lia)) as [S1 _] end.
  - intros c1 c2 H1 H2 i k Hi Hk. assert (i = 0) by lia. subst i. change (4 / 2) with 2 in *. cbv zeta.
    assert (P : forall k, spectrum 4 (padded (spike 0) 4 0) k = (1, 0)%R) by (intros; rewrite (spectrum_ext _ _ (spike 0)); [apply spectrum_spike; lia|]; intros u Hu; unfold padded; now replace (u <? 4) with true by lia).
    assert (A1 : forall k, 0 <= k <= 2 -> c1 k = (1, 0)%R) by (intros j Hj; specialize (H1 0 j ltac:(lia) Hj); change (4 / 2 + 1) with 3 in H1; replace (0 * 3 + j) with j in H1 by ring; rewrite H1; apply P).
    assert (A2 : forall k, 0 <= k <= 2 -> c2 k = (1, 0)%R) by (intros j Hj; specialize (H2 0 j ltac:(lia) Hj); change (4 / 2 + 1) with 3 in H2; replace (0 * 3 + j) with j in H2 by ring; rewrite H2; apply P).
    assert (Sq : (sqrt (1 * 1 + 0 * 0) * sqrt (1 * 1 + 0 * 0) = 1)%R) by (replace (1 * 1 + 0 * 0)%R with 1%R by ring; rewrite sqrt_1; ring).
    assert (Dn : forall j, 0 <= j <= 2 -> (let '(p1r, p1i) := c1 (j + 0 * (2 + 1)) in let '(p2r, p2i) := c2 (j + 0 * (2 + 1)) in (sqrt (p1r * p1r + p1i * p1i) * sqrt (p2r * p2r + p2i * p2i))%R) = 1%R) by (intros j Hj; replace (j + 0 * (2 + 1)) with j by ring; rewrite A1, A2 by assumption; exact Sq).
    match goal with |- context [fold_left ?g (range 0 1) (junkc, scl0)] => set (G := g) end.
    assert (E : fold_left G (range 0 1) (junkc, scl0) = fold_left (fun (s : (Z -> C) * R) i => fold_left (fun s j => (upd (fst s) (i * (2 + 1) + j) (snd s, 0%R), snd s)) (range 0 (2 + 1)) s) (range 0 1) (junkc, scl0)).
    { apply fold_left_ext. intros s i' Hi'. apply in_range in Hi'. assert (i' = 0) by lia. subst i'. unfold G. clear G. cbv beta zeta.
      set (step := fun (mx dd : R) (s : (Z -> C) * R) (j : Z) => let '(q, scl) := s in
        let scl := if Rlt_dec (1 * mx) dd then (1 / dd)%R else if Rlt_dec dd (1 * mx) then (if Req_EM_T dd 0 then 1 else 1 / (dd + (0 * mx + 0)))%R else if Req_EM_T dd 0 then 1%R else scl in
        let '(p1r, p1i) := c1 (0 * (2 + 1) + j) in let '(p2r, p2i) := c2 (0 * (2 + 1) + j) in (upd q (0 * (2 + 1) + j) ((p1r * p2r + p1i * p2i) * scl, (p1i * p2r - p1r * p2i) * scl)%R, scl)).
      set (den := fun x => let '(p1r, p1i) := c1 x in let '(p2r, p2i) := c2 x in (sqrt (p1r * p1r + p1i * p1i) * sqrt (p2r * p2r + p2i * p2i))%R).
      match goal with |- _ = ?r => change (fold_left (fun s j => step (fold_left (fun m j => Rmax m (den (j + 0 * (2 + 1)))) (range 0 (2 + 1)) 0%R) (den (j + 0 * (2 + 1))) s j) (range 0 (2 + 1)) s = r) end.
      assert (Em : fold_left (fun m j => Rmax m (den (j + 0 * (2 + 1)))) (range 0 (2 + 1)) 0%R = 1%R).
      { transitivity (fold_left (fun m (_ : Z) => Rmax m 1) (range 0 (2 + 1)) 0%R); [|change (range 0 (2 + 1)) with [0; 1; 2]; cbn [fold_left]; rewrite (Rmax_right 0 1), !(Rmax_left 1 1) by lra; reflexivity]. apply fold_left_ext. intros a b Hb. apply in_range in Hb. unfold den. now rewrite Dn by lia. }
      rewrite Em. apply fold_left_ext. intros [Q scl] j Hj. apply in_range in Hj. replace (den (j + 0 * (2 + 1))) with 1%R by (unfold den; now rewrite Dn by lia). clear Em. unfold step. clear step.
      destruct (Rlt_dec (1 * 1) 1) as [N|_]; [lra|]. destruct (Req_EM_T 1 0) as [N|_]; [lra|]. destruct (Rlt_dec 1 (1 * 1)) as [N|_]; [lra|].
      replace (0 * (2 + 1) + j) with j by ring. rewrite A1, A2 by lia. cbn [fst snd]. replace ((1 * 1 + 0 * 0) * scl)%R with scl by ring. replace ((0 * 1 - 1 * 0) * scl)%R with 0%R by ring. reflexivity. }
    rewrite E. clear E. change (range 0 1) with [0]. change (range 0 (2 + 1)) with [0; 1; 2]. cbn [fold_left fst snd].
    replace (spectrum 4 (fun t => scl0 * spike 0 t)%R k) with (scl0, 0)%R.
    + assert (C : k = 0 \/ k = 1 \/ k = 2) by lia. destruct C as [-> | [-> | ->]]; reflexivity.
    + transitivity (cadd (cmul (scl0, 0)%R (spectrum 4 (spike 0) k)) (cmul c0 (spectrum 4 (spike 0) k))); [rewrite spectrum_spike by lia; unfold cadd, cmul, c0; cbn [fst snd]; f_equal; ring|].
      unfold spectrum. rewrite <- dft_lin. apply PropertiesFftLayout.dft_ext. intros j _. unfold real_values, cadd, cmul, c0. cbn [fst snd]. f_equal; ring.
  - pose proof (S1 0 0 ltac:(lia) ltac:(lia)) as E. replace (0 * 4 + 0) with 0 in E by reflexivity. etransitivity; [exact E|]. unfold spike. cbn. ring.
Qed.
Print Assumptions C72_unset_factor_refuted.
