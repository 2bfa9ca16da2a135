(** Properties of basop: Hilbert transform, envelope, time reversal, rotation, averages (C88). *)
From Coq Require Import ZArith Reals List Bool Lia Lra.
From Verif Require Import ListAux FdKernels FdProofs FdOutputProofs Marchenko MarchenkoProofs KissFft FftSize FftSpec FftAux FftInverse LibFft PropertiesDft PropertiesRealFft FftLayout PropertiesFftLayout FconvSpec Fconv FconvProofs PropertiesFconv PropertiesSource BasopSpec Basop BasopProofs PropertiesBasop.
Import ListNotations.
Local Opaque optncr.
Local Open Scope Z_scope.

(** ** specification *)
(** h is the Hilbert transform of the signal x of n samples: the phase of every frequency is turned by -90 degrees; the zero frequency and the highest one vanish *)
Definition is_hilbert (n : Z) (x h : Z -> R) : Prop :=
  forall k, 0 <= k <= n / 2 -> spectrum n h k = if (k =? 0) || (2 * k =? n) then (0, 0)%R else (snd (spectrum n x k), (- fst (spectrum n x k))%R).

(** ** auxiliary *)
Lemma half_sum n P t : 1 <= n -> (forall k, n / 2 < k < n -> P k = c0) ->
  (2 * fst (dft n 1 P t))%R = fst (dft n 1 (hermitian n (fun k => if (k =? 0) || (2 * k =? n) then (2 * fst (P k), 0)%R else P k)) t).
Proof.
  intros Hn HP. set (E := fun k => if (k =? 0) || (2 * k =? n) then (2 * fst (P k), 0)%R else P k).
  assert (X : dft n 1 (hermitian n E) t = cadd (dft n 1 P t) (conj (dft n 1 P t))).
  { unfold dft at 3. rewrite <- total_conj. rewrite <- (total_reverse n Hn (fun k => conj (times (P k) (root n 1 (k * t))))). unfold dft. rewrite <- total_add. apply total_ext. intros k Hk. rewrite Z2Nat.id in Hk by lia.
    assert (R1 : conj (root n 1 ((- k) mod n * t)) = root n 1 (k * t)).
    { assert (S1 : 1 = 1 \/ 1 = -1) by now left. rewrite <- (root_opp 1). rewrite <- (root_mod 1 S1 n (- _)), <- (root_mod 1 S1 n (k * t)) by lia. f_equal.
      pose proof (Z.div_mod (- k) n ltac:(lia)) as D. replace (- ((- k) mod n * t)) with (k * t + ((- k) / n * t) * n) by (replace ((- k) mod n) with (- k - n * ((- k) / n)) by lia; ring). apply Z_mod_plus_full. }
    rewrite times_cmul, conj_cmul, R1. unfold cadd, cmul.
    assert (H : hermitian n E k = cadd (P k) (conj (P ((- k) mod n)))).
    { unfold hermitian, E. destruct (Z.eqb_spec k 0) as [->|N0].
      - cbn [Z.eqb orb]. replace (- 0 mod n) with 0 by (rewrite Z.mod_small; lia). unfold cadd, conj. cbn [fst snd]. f_equal; ring.
      - replace ((- k) mod n) with (n - k) by (apply (Z.mod_unique_pos _ _ (-1)); lia). destruct (Z.ltb_spec (2 * k) n).
        + destruct (Z.eqb_spec (2 * k) n); [lia|]. cbn [orb]. rewrite (HP (n - k)); [unfold cadd, conj, c0; apply C_eq; cbn [fst snd]; ring|]. split; [apply Z.div_lt_upper_bound; lia|lia].
        + destruct (Z.eqb_spec (2 * k) n) as [E2|N2].
          * cbn [orb fst]. replace (n - k) with k by lia. unfold cadd, conj. cbn [fst snd]. f_equal; ring.
          * destruct (Z.eqb_spec (n - k) 0); [lia|]. destruct (Z.eqb_spec (2 * (n - k)) n); [lia|]. cbn [orb]. rewrite (HP k); [unfold cadd, conj, c0; apply C_eq; cbn [fst snd]; ring|]. split; [apply Z.div_lt_upper_bound; lia|lia]. }
    rewrite H. unfold cadd. cbn [fst snd]. apply C_eq; cbn [fst snd]; ring. }
  rewrite X. unfold cadd, conj. cbn [fst]. ring.
Qed.
Lemma fold_sum f n (a : R) : 0 <= n -> fold_left (fun a i => (a + f i)%R) (range 0 n) a = (a + Sum n f)%R.
Proof.
  revert n. refine (natlike_ind _ _ _).
  - rewrite range_nil by lia. unfold Sum. cbn. ring.
  - intros n Hn IH. unfold Z.succ. rewrite range_snoc by lia. rewrite fold_left_app, IH. cbn [fold_left]. unfold Sum. replace (Z.to_nat (n + 1)) with (S (Z.to_nat n)) by lia. cbn [sum]. rewrite Z2Nat.id by lia. ring.
Qed.

Lemma analytic_ok junkc data nsam nrec n i t : 1 <= nsam <= n -> 0 <= i < nrec -> 0 <= t < n ->
  analytic junkc data nsam nrec n (i * n + t) = dft n 1 (fun k => if k <=? n / 2 then spectrum n (padded data nsam i) k else c0) t.
Proof.
  intros Hs Hi Ht. unfold analytic. cbv zeta. assert (D : 0 <= n / 2 < n) by (split; [apply Z.div_pos; lia|apply Z.div_lt_upper_bound; lia]).
  rewrite (proj1 (ccmfft_ok _ n nrec n 1 (Z.le_refl n) ltac:(lia)) i t) by assumption. apply PropertiesFftLayout.dft_ext. intros k Hk.
  set (c1 := ccmfft _ n nrec n (-1)).
  assert (C1 : c1 (i * n + k) = spectrum n (padded data nsam i) k).
  { unfold c1. rewrite (proj1 (ccmfft_ok _ n nrec n (-1) (Z.le_refl n) ltac:(lia)) i k) by assumption. unfold spectrum. apply PropertiesFftLayout.dft_ext. intros u Hu.
    destruct (fold_rows (fun c ix => fold_left (fun c j => upd c (ix * n + j) (0, 0)%R) (range nsam n) (fold_left (fun c j => upd c (ix * n + j) (data (ix * nsam + j)%Z, 0)%R) (range 0 nsam) c))
      (fun i _ t => real_values (padded data nsam i) t) n nrec junkc) as [G _]; [lia| |reflexivity|apply G; assumption].
    intros o j x Hj. rewrite (fold_row (fun _ => (0, 0)%R)), (fold_row (fun q => (data (j * nsam + q)%Z, 0)%R)). unfold real_values, padded.
    destruct (Z.leb_spec nsam (x - j * n)), (Z.ltb_spec (x - j * n) n), (Z.leb_spec 0 (x - j * n)), (Z.ltb_spec (x - j * n) nsam); cbn [andb]; try reflexivity; lia. }
  destruct (fold_rows (fun c ix => fold_left (fun c j => upd c (ix * n + j) (0, 0)%R) (range (n / 2 + 1) n) c) (fun _ r t => if t <=? n / 2 then r t else c0) n nrec c1) as [G _]; [lia| | |].
  - intros o j x Hj. rewrite (fold_row (fun _ => (0, 0)%R)). replace (j * n + (x - j * n)) with x by ring.
    destruct (Z.leb_spec (n / 2 + 1) (x - j * n)), (Z.ltb_spec (x - j * n) n), (Z.leb_spec 0 (x - j * n)), (Z.leb_spec (x - j * n) (n / 2)); cbn [andb]; try reflexivity; lia.
  - intros j r r' q Hj E Hq. destruct (q <=? n / 2); [now apply E|reflexivity].
  - rewrite G by assumption. destruct (Z.leb_spec k (n / 2)); [exact C1|reflexivity].
Qed.
(** a loop that writes the samples of all traces *)
Lemma write_all (v : Z -> Z -> R) nsam nrec (d : Z -> R) : 0 <= nrec ->
  let r := fold_left (fun d ix => fold_left (fun d j => upd d (ix * nsam + j) (v ix j)) (range 0 nsam) d) (range 0 nrec) d in
  (forall i t, 0 <= i < nrec -> 0 <= t < nsam -> r (i * nsam + t) = v i t) /\ (forall x, ~ 0 <= x < nrec * nsam -> r x = d x).
Proof.
  intros Hr. apply (fold_rows (fun d ix => fold_left (fun d j => upd d (ix * nsam + j) (v ix j)) (range 0 nsam) d) (fun i _ t => v i t)); [exact Hr| |reflexivity].
  intros o i x Hi. apply (fold_row (v i)).
Qed.
Lemma no_traces nrec (f : (Z -> R) -> Z -> Z -> R) d : nrec < 0 -> fold_left f (range 0 nrec) d = d.
Proof. intros H. now rewrite range_nil by lia. Qed.
(** half the spectrum of the Hilbert transform *)
Definition hc (n : Z) (x : Z -> R) (k : Z) : C := if (k =? 0) || (2 * k =? n) then (0, 0)%R else (/ 2 * snd (spectrum n x k), / 2 * - fst (spectrum n x k))%R.
Lemma hilbert_exists n x : 1 <= n -> is_hilbert n x (fun t => 2 * synth n (hc n x) t)%R.
Proof.
  intros Hn k Hk. 
  assert (L : spectrum n (fun t => 2 * synth n (hc n x) t)%R k = scaled 2 (spectrum n (synth n (hc n x)) k)).
  { unfold spectrum at 1 2. transitivity (dft n (-1) (fun i => cadd (cmul (2, 0)%R (real_values (synth n (hc n x)) i)) (cmul c0 (real_values (synth n (hc n x)) i))) k).
    - apply PropertiesFftLayout.dft_ext. intros u Hu. unfold real_values, cadd, cmul, c0. cbn [fst snd]. f_equal; ring.
    - rewrite dft_lin. unfold scaled, cadd, cmul, c0. cbn [fst snd]. f_equal; ring. }
  rewrite L, synth_spectrum by lia. unfold hc. destruct ((k =? 0) || (2 * k =? n)); unfold scaled; cbn [fst snd]; f_equal; field.
Qed.
(** imaginary part of the analytic signal *)
Lemma imaginary n x t : 1 <= n -> snd (dft n 1 (fun k => if k <=? n / 2 then spectrum n x k else c0) t) = (IZR n * synth n (hc n x) t)%R.
Proof.
  intros Hn. assert (Nz : IZR n <> 0%R) by (apply not_0_IZR; lia). set (P := fun k => if k <=? n / 2 then spectrum n x k else c0).
  set (Q := fun k => cadd (cmul (0, - / 2)%R (P k)) (cmul c0 (P k))).
  assert (E1 : snd (dft n 1 P t) = (2 * fst (dft n 1 Q t))%R). { unfold Q. rewrite dft_lin. unfold cadd, cmul, c0. cbn [fst snd]. field. }
  rewrite E1, half_sum; [|exact Hn|]. 2:{ intros k Hk. unfold Q, P. destruct (Z.leb_spec k (n / 2)); [lia|]. unfold cadd, cmul, c0. cbn [fst snd]. f_equal; ring. }
  unfold synth. rewrite <- Rmult_assoc, Rinv_r, Rmult_1_l by exact Nz. f_equal. apply PropertiesFftLayout.dft_ext. intros k Hk. apply hermitian_ext; [exact Hn|exact Hk|].
  intros j Hj. unfold Q, P, hc. destruct (Z.leb_spec j (n / 2)); [|lia]. destruct (spectrum_ends n Hn x) as [S0 S2].
  destruct ((j =? 0) || (2 * j =? n)) eqn:B.
  - assert (S : snd (spectrum n x j) = 0%R). { apply orb_true_iff in B. destruct B as [B|B]; apply Z.eqb_eq in B; [subst j; exact S0|]. assert (J : j = n / 2) by (apply (Z.div_unique_exact n 2 j); lia). rewrite J. apply S2. lia. }
    unfold cadd, cmul, c0. cbn [fst snd]. rewrite S. f_equal; ring.
  - unfold cadd, cmul, c0. cbn [fst snd]. f_equal; ring.
Qed.
(** real part, for signals without zero frequency and highest frequency *)
Lemma real_part n x t : 1 <= n -> 0 <= t < n -> spectrum n x 0 = (0, 0)%R -> (forall k, 2 * k = n -> spectrum n x k = (0, 0)%R) ->
  (2 * fst (dft n 1 (fun k => if k <=? n / 2 then spectrum n x k else c0) t) = IZR n * x t)%R.
Proof.
  intros Hn Ht H0 H2. rewrite half_sum; [|exact Hn|intros k Hk; destruct (Z.leb_spec k (n / 2)); [lia|reflexivity]].
  apply back; [exact Hn| |exact Ht]. intros k Hk. destruct (Z.leb_spec k (n / 2)); [|lia]. destruct (Z.eqb_spec k 0) as [->|N0]; cbn [orb].
  - rewrite H0. cbn [fst]. f_equal. ring.
  - destruct (Z.eqb_spec (2 * k) n) as [E|N2]; [|reflexivity]. rewrite H2 by exact E. cbn [fst]. f_equal. ring.
Qed.

(** ** C88 *)
(** hilb: the output is one half of the Hilbert transform of the padded trace *)
Theorem C88_hilbert junkc data nsam nrec : 1 <= nsam <= optncr nsam ->
  let n := optncr nsam in
  (forall i, 0 <= i < nrec -> exists h, is_hilbert n (padded data nsam i) h /\ forall t, 0 <= t < nsam -> hilbertTrans junkc data nsam nrec (i * nsam + t) = (h t / 2)%R) /\
  (forall x, ~ 0 <= x < nrec * nsam -> hilbertTrans junkc data nsam nrec x = data x).
Proof.
  intros Hs n. unfold hilbertTrans. cbv zeta. fold n. assert (Nz : IZR n <> 0%R) by (apply not_0_IZR; lia).
  destruct (Z.le_gt_cases 0 nrec) as [Hr|Hr]; [|split; [intros i Hi; lia|]; intros x _; now rewrite (range_nil 0 nrec) by lia].
  destruct (write_all (fun i t => snd (analytic junkc data nsam nrec n (i * n + t)%Z) * (1 / IZR n))%R nsam nrec data Hr) as [W1 W2]. split; [|exact W2].
  intros i Hi. set (x := padded data nsam i). exists (fun t => 2 * synth n (hc n x) t)%R. split.
  - apply hilbert_exists. lia.
  - intros t Ht. rewrite W1 by assumption. rewrite analytic_ok by (try assumption; lia). rewrite imaginary by lia. fold x. generalize (synth n (hc n x) t). intros s. field. exact Nz.
Qed.
Print Assumptions C88_hilbert.
(** It is not the Hilbert transform itself: a cosine becomes half a sine. *)
Definition cosine4 : Z -> R := fun x => if x =? 0 then 1%R else if x =? 2 then (-1)%R else 0%R.
Lemma cosine4_spectrum : spectrum 4 (padded cosine4 4 0) 1 = (2, 0)%R /\ spectrum 4 (padded cosine4 4 0) 0 = (0, 0)%R /\ spectrum 4 (padded cosine4 4 0) 2 = (0, 0)%R.
Proof.
  repeat split; unfold spectrum, dft; change (Z.to_nat 4) with 4%nat; cbn [total Z.of_nat Pos.of_succ_nat Pos.succ]; unfold real_values, padded, cosine4; cbn [Z.ltb Z.compare Pos.compare Pos.compare_cont Z.mul Z.add Z.eqb Pos.eqb];
   change (Z.pos (2 * 1)) with 2; change (Z.pos (2 * 2)) with 4; rewrite ?root_0, ?(root_half (-1) 4 2) by lia; rewrite ?(root_full (-1) 4) by lia; unfold plus, times, c1, copp; cbn [fst snd]; f_equal; ring.
Qed.
Theorem C88_hilbert_scale_refuted : exists data nsam, optncr nsam = nsam /\
  forall junkc, ~ is_hilbert nsam (trace_of data nsam 0) (trace_of (hilbertTrans junkc data nsam 1) nsam 0).
Proof.
  exists cosine4, 4. split; [exact optncr_4|]. intros junkc H.
  destruct (C88_hilbert junkc cosine4 4 1 ltac:(rewrite optncr_4; lia)) as [C _]. cbv zeta in C. rewrite optncr_4 in C. destruct (C 0 ltac:(lia)) as (h & Hh & He). clear C.
  assert (T : forall k, spectrum 4 (trace_of cosine4 4 0) k = spectrum 4 (padded cosine4 4 0) k). { intros k. apply spectrum_ext. intros t Ht. unfold padded, trace_of. destruct (Z.ltb_spec t 4); [reflexivity|lia]. }
  assert (E : forall t, 0 <= t < 4 -> trace_of (hilbertTrans junkc cosine4 4 1) 4 0 t = h t).
  { apply spectrum_inj; [lia|]. intros k Hk. rewrite (H k Hk), (Hh k Hk), T. reflexivity. }
  assert (Z0 : forall t, 0 <= t < 4 -> h t = 0%R). { intros t Ht. specialize (E t Ht). unfold trace_of in E. rewrite (He t Ht) in E. lra. }
  assert (Q : spectrum 4 h 1 = c0). { unfold spectrum, dft. apply total_zero. intros t Ht. unfold real_values. rewrite Z0 by lia. unfold times, c0. cbn [fst snd]. f_equal; ring. }
  rewrite (Hh 1 ltac:(cbn; lia)) in Q. change ((1 =? 0) || (2 * 1 =? 4)) with false in Q. cbv iota in Q. rewrite (proj1 cosine4_spectrum) in Q. apply (f_equal snd) in Q. unfold c0 in Q. cbn [fst snd] in Q. lra.
Qed.
Print Assumptions C88_hilbert_scale_refuted.
Theorem C88_modulus z : rcabs z = sqrt (fst z * fst z + snd z * snd z).
Proof.
  destruct z as [a b]. unfold rcabs. cbn [fst snd]. cbv zeta.
  assert (K : forall x y, (0 < x)%R -> (x * sqrt (1 + y / x * (y / x)) = sqrt (x * x + y * y))%R).
  { intros x y Hx. replace (x * x + y * y)%R with (x * x * (1 + y / x * (y / x)))%R by (field; lra). rewrite sqrt_mult_alt by nra. rewrite sqrt_square by lra. reflexivity. }
  assert (S : forall u, (Rabs u * Rabs u = u * u)%R) by (intros u; rewrite <- Rabs_mult; apply Rabs_pos_eq; nra).
  rewrite <- (S a), <- (S b). assert (A := Rabs_pos a). assert (B := Rabs_pos b). revert A B. generalize (Rabs a) (Rabs b). clear. intros x y Hx Hy.
  destruct (Req_EM_T x 0) as [->|Nx]; [rewrite Rmult_0_l, Rplus_0_l; now rewrite sqrt_square|]. destruct (Req_EM_T y 0) as [->|Ny]; [rewrite Rmult_0_l, Rplus_0_r; now rewrite sqrt_square|].
  destruct (Rlt_dec y x).
  - replace (x * x + y * y)%R with (x * x * (1 + y / x * (y / x)))%R by (field; lra). rewrite sqrt_mult_alt by nra. rewrite sqrt_square by lra. reflexivity.
  - replace (x * x + y * y)%R with (y * y * (1 + x / y * (x / y)))%R by (field; lra). rewrite sqrt_mult_alt by nra. rewrite sqrt_square by lra. reflexivity.
Qed.
Print Assumptions C88_modulus.
(** env: sqrt(x^2 + h^2) with h the Hilbert transform, for traces without zero frequency and highest frequency *)
Theorem C88_envelope junkc data nsam nrec i t h : 1 <= nsam <= optncr nsam -> 0 <= i < nrec -> 0 <= t < nsam ->
  let n := optncr nsam in let x := padded data nsam i in
  spectrum n x 0 = (0, 0)%R -> (forall k, 2 * k = n -> spectrum n x k = (0, 0)%R) -> is_hilbert n x h ->
  Envelope junkc data nsam nrec (i * nsam + t) = sqrt (data (i * nsam + t)%Z * data (i * nsam + t)%Z + h t * h t).
Proof.
  intros Hs Hi Ht n x H0 H2 Hh. unfold Envelope. cbv zeta. fold n. assert (Hn : 1 <= n) by lia. assert (Nz : (0 < IZR n)%R) by (apply (IZR_lt 0); lia).
  destruct (write_all (fun i t => rcabs (analytic junkc data nsam nrec n (i * n + t)%Z) * (2 / IZR n))%R nsam nrec data ltac:(lia)) as [W1 _]. rewrite W1 by assumption.
  rewrite analytic_ok by (try assumption; lia). fold x. rewrite C88_modulus.
  assert (E : h t = (2 * synth n (hc n x) t)%R).
  { apply (spectrum_inj n h (fun t => 2 * synth n (hc n x) t)%R Hn); [|lia].
    intros k Hk. rewrite (Hh k Hk). symmetry. now apply hilbert_exists. }
  pose proof (imaginary n x t Hn) as I. pose proof (real_part n x t Hn ltac:(lia) H0 H2) as Rp.
  replace (data (i * nsam + t)%Z) with (x t) by (unfold x, padded; destruct (Z.ltb_spec t nsam); [reflexivity|lia]).
  set (D := dft n 1 _ t) in *. set (s := synth n _ t) in *. clearbody D s. rewrite E, I. clear - Nz Rp.
  assert (F : fst D = (IZR n * x t / 2)%R) by lra. rewrite F. generalize dependent (IZR n). intros q Hq _ _.
  replace (2 / q)%R with (sqrt (2 / q * (2 / q)))%R by (apply sqrt_square; apply Rlt_le, Rdiv_lt_0_compat; lra). rewrite <- sqrt_mult_alt by nra. f_equal. field. lra.
Qed.
Print Assumptions C88_envelope.
(** not for others: the envelope of a constant is twice the constant *)
Theorem C88_envelope_constant_refuted junkc a nsam nrec i t : 1 <= nsam -> optncr nsam = nsam -> 0 <= i < nrec -> 0 <= t < nsam ->
  Envelope junkc (fun _ => a) nsam nrec (i * nsam + t) = (2 * Rabs a)%R.
Proof.
  intros Hs Hn Hi Ht. unfold Envelope. cbv zeta. rewrite Hn. assert (Nz : (0 < IZR nsam)%R) by (apply (IZR_lt 0); lia).
  destruct (write_all (fun i t => rcabs (analytic junkc (fun _ => a) nsam nrec nsam (i * nsam + t)%Z) * (2 / IZR nsam))%R nsam nrec (fun _ => a) ltac:(lia)) as [W1 _]. rewrite W1 by assumption.
  rewrite analytic_ok by (try assumption; lia).
  assert (Sp : forall k, 0 <= k < nsam -> spectrum nsam (padded (fun _ => a) nsam i) k = if k =? 0 then (IZR nsam * a, 0)%R else c0).
  { intros k Hk. transitivity (cmul (a, 0)%R (total (Z.to_nat nsam) (fun l => root nsam (-1) (l * k)))).
    - unfold spectrum, dft. rewrite <- total_mul_l. apply total_ext. intros j Hj. rewrite Z2Nat.id in Hj by lia. unfold real_values, padded. destruct (Z.ltb_spec j nsam); [reflexivity|lia].
    - destruct (Z.eqb_spec k 0) as [->|N].
      + rewrite (total_ext _ _ (fun _ => c1)) by (intros j _; rewrite Z.mul_0_r; apply root_0). rewrite total_const, INR_IZR_INZ, Z2Nat.id by lia. unfold scaled, cmul, c1. cbn [fst snd]. f_equal; ring.
      + rewrite total_root_zero; [unfold cmul, c0; cbn [fst snd]; f_equal; ring|now right|lia|rewrite Z.mod_small by lia; exact N]. }
  assert (D : dft nsam 1 (fun k => if k <=? nsam / 2 then spectrum nsam (padded (fun _ => a) nsam i) k else c0) t = (IZR nsam * a, 0)%R).
  { unfold dft. rewrite (total_single _ _ 0).
    - rewrite Z.mul_0_l, root_0. destruct (Z.leb_spec 0 (nsam / 2)); [|exfalso; assert (0 <= nsam / 2) by (apply Z.div_pos; lia); lia]. rewrite Sp by lia. cbn [Z.eqb]. unfold times, c1. cbn [fst snd]. f_equal; ring.
    - lia.
    - intros k Hk N. destruct (Z.leb_spec k (nsam / 2)).
      + rewrite Sp by lia. destruct (Z.eqb_spec k 0); [contradiction|]. unfold times, c0. cbn [fst snd]. f_equal; ring.
      + unfold times, c0. cbn [fst snd]. f_equal; ring. }
  rewrite D, C88_modulus. cbn [fst snd]. replace (IZR nsam * a * (IZR nsam * a) + 0 * 0)%R with (Rsqr (IZR nsam * a)) by (unfold Rsqr; ring). rewrite sqrt_Rsqr_abs, Rabs_mult, (Rabs_pos_eq (IZR nsam)) by lra. field. lra.
Qed.
Print Assumptions C88_envelope_constant_refuted.

(** conjg: the samples in reverse order, one sample too late: sample t is sample nsam - t of the trace *)
Theorem C88_reversal junkr junkc data nsam nrec : 1 <= nsam <= optncr nsam -> 0 <= nrec ->
  let r := Basop.conjugate junkr junkc data nsam nrec in
  (forall i t, 0 <= i < nrec -> 1 <= t < nsam -> r (i * nsam + t) = data (i * nsam + (nsam - t))) /\
  (forall i, 0 <= i < nrec -> r (i * nsam) = if nsam <? optncr nsam then 0%R else data (i * nsam)) /\
  (forall x, ~ 0 <= x < nrec * nsam -> r x = data x).
Proof.
  intros Hs Hr. unfold Basop.conjugate. cbv zeta. revert Hs. generalize (optncr nsam). intros n Hs. assert (Nz : IZR n <> 0%R) by (apply not_0_IZR; lia). assert (D : 0 <= n / 2 < n) by (split; [apply Z.div_pos; lia|apply Z.div_lt_upper_bound; lia]).
  set (cd := fold_left _ (range 0 nrec) (rcmfft _ _ _ _ _ _ _)).
  assert (Cd : forall i k, 0 <= i < nrec -> 0 <= k <= n / 2 -> cd (i * (n / 2 + 1) + k) = spectrum n (reversed n (padded data nsam i)) k).
  { intros i k Hi Hk. unfold cd. destruct (fold_rows (fun c ix => fold_left (fun c j => upd c (ix * (n / 2 + 1) + j) (fst (c (ix * (n / 2 + 1) + j)%Z), - snd (c (ix * (n / 2 + 1) + j)%Z))%R) (range 0 (n / 2 + 1)) c)
      (fun _ q t => conj (q t)) (n / 2 + 1) nrec (rcmfft (pad_data data nsam nrec n junkr) junkc n nrec n (n / 2 + 1) (-1))) as [G _]; [exact Hr| | |].
    - intros o j x Hj. destruct (grid (fun _ q => j * (n / 2 + 1) + q) (fun (_ q : Z) (v : C) => (fst v, - snd v)%R) [0] (range 0 (n / 2 + 1)) ltac:(repeat constructor; intros []) (range_NoDup _ _)) with (m := o) as [G1 G2].
      + intros a b a' b' [<-|[]] Hb [<-|[]] Hb' E. lia.
      + cbn [fold_left] in G1, G2. destruct (Z.leb_spec 0 (x - j * (n / 2 + 1))), (Z.ltb_spec (x - j * (n / 2 + 1)) (n / 2 + 1)); cbn [andb].
        * replace x with (j * (n / 2 + 1) + (x - j * (n / 2 + 1))) at 1 by ring. apply (G1 0 (x - j * (n / 2 + 1))); [now left|apply in_range; lia].
        * apply G2. intros _ q _ Hq. apply in_range in Hq. lia.
        * apply G2. intros _ q _ Hq. apply in_range in Hq. lia.
        * apply G2. intros _ q _ Hq. apply in_range in Hq. lia.
    - intros j q q' t Hj E Ht. now rewrite E.
    - rewrite G by lia. rewrite spectrum_reversed by lia. f_equal. rewrite rcmfft_ok by lia. unfold spectrum. apply PropertiesFftLayout.dft_ext. intros u Hu. unfold real_values, trace. rewrite pad_data_ok by lia. reflexivity. }
  destruct (write_all (fun i t => (1 / IZR n * crmfft cd (pad_data data nsam nrec n junkr) n nrec (n / 2 + 1) n 1 (i * n + t + (n - nsam))%Z)%R) nsam nrec data Hr) as [W1 W2].
  assert (V : forall i t, 0 <= i < nrec -> 0 <= t < nsam -> (1 / IZR n * crmfft cd (pad_data data nsam nrec n junkr) n nrec (n / 2 + 1) n 1 (i * n + t + (n - nsam))%Z)%R = padded data nsam i ((nsam - t) mod n)).
  { intros i t Hi Ht. replace (i * n + t + (n - nsam)) with (i * n + (t + (n - nsam))) by ring. rewrite (proj1 (crmfft_ok _ _ n nrec (n / 2 + 1) n 1 (Z.le_refl n))) by lia.
    rewrite (back n ltac:(lia) (reversed n (padded data nsam i)) (fun k => cd (i * (n / 2 + 1) + k))); [|intros k Hk; now apply Cd|lia]. unfold reversed.
    replace (- (t + (n - nsam)) mod n) with ((nsam - t) mod n) by (replace (- (t + (n - nsam))) with (nsam - t + (-1) * n) by ring; symmetry; apply Z_mod_plus_full). generalize (padded data nsam i ((nsam - t) mod n)). intros v. field. exact Nz. }
  split; [|split; [|exact W2]].
  - intros i t Hi Ht. rewrite W1, V by lia. rewrite Z.mod_small by lia. unfold padded. destruct (Z.ltb_spec (nsam - t) nsam); [reflexivity|lia].
  - intros i Hi. replace (i * nsam) with (i * nsam + 0) by ring. rewrite W1, V by lia. rewrite Z.sub_0_r. destruct (Z.ltb_spec nsam n).
    + rewrite Z.mod_small by lia. unfold padded. now rewrite Z.ltb_irrefl.
    + replace nsam with n at 2 by lia. rewrite Z_mod_same_full. unfold padded. destruct (Z.ltb_spec 0 nsam); [reflexivity|lia].
Qed.
Print Assumptions C88_reversal.
(** The headers say that sample t is at time -(nsam-1)+t: that would be sample nsam-1-t of the trace.  They disagree with the samples. *)
Theorem C88_reversal_header_refuted : exists data nsam, optncr nsam = nsam /\ forall junkr junkc, exists t, 0 <= t < nsam /\
  Basop.conjugate junkr junkc data nsam 1 t <> data (- (conjugate_f1 nsam + t)).
Proof.
  exists impulse_gather, 4. split; [exact optncr_4|]. intros junkr junkc. exists 3. split; [lia|].
  destruct (C88_reversal junkr junkc impulse_gather 4 1 ltac:(rewrite optncr_4; lia) ltac:(lia)) as [R _]. cbv zeta in R. specialize (R 0 3 ltac:(lia) ltac:(lia)). change (0 * 4 + 3) with 3 in R. rewrite R. unfold impulse_gather, conjugate_f1. cbn. lra.
Qed.
Print Assumptions C88_reversal_header_refuted.
(** nrot: circular shift of every trace *)
Theorem C88_rotation data nsam nrec nrot : 1 <= nsam -> 0 <= nrec -> 0 <= nrot <= nsam ->
  let r := timeRotate data nsam nrec nrot in
  (forall i t, 0 <= i < nrec -> 0 <= t < nsam -> r (i * nsam + t) = data (i * nsam + (t - nrot) mod nsam)) /\
  (forall x, ~ 0 <= x < nrec * nsam -> r x = data x).
Proof.
  intros Hs Hr Hn. unfold timeRotate, rotate_accesses.
  destruct (fold_rows (fun d ix => fold_left (fun d' p => upd d' (ix * nsam + snd p) (d (ix * nsam + fst p))) (map (fun it => (it, nrot + it)) (range 0 (nsam - nrot)) ++ map (fun it => (nsam - nrot + it, it)) (range 0 nrot)) d)
    (fun _ q t => q ((t - nrot) mod nsam)) nsam nrec data Hr) as [G1 G2].
  - intros o i x Hi. rewrite fold_left_app, !PropertiesFftLayout.fold_map. cbn [fst snd].
    rewrite (fold_row (fun it => o (i * nsam + (nsam - nrot + it)))).
    rewrite (PropertiesDft.fold_left_ext (fun d' it => upd d' (i * nsam + (nrot + it)) (o (i * nsam + it))) (fun d' it => upd d' ((i * nsam + nrot) + it) (o (i * nsam + it)))) by (intros a b _; f_equal; ring).
    rewrite (fold_row (fun it => o (i * nsam + it))). set (t := x - i * nsam). replace (x - (i * nsam + nrot)) with (t - nrot) by (unfold t; ring).
    destruct (Z.leb_spec 0 t), (Z.ltb_spec t nrot), (Z.leb_spec 0 (t - nrot)), (Z.ltb_spec (t - nrot) (nsam - nrot)), (Z.ltb_spec t nsam); cbn [andb]; try reflexivity; try lia.
    + f_equal. f_equal. apply (Z.mod_unique_pos _ _ (-1)); lia.
    + rewrite Z.mod_small by lia. reflexivity.
  - intros i q q' t Hi E Ht. apply E. apply Z.mod_pos_bound. lia.
  - split; [exact G1|exact G2].
Qed.
Print Assumptions C88_rotation.
(** its accesses are inside the trace exactly for rotations between 0 and nsam: negative rotations, which the program allows, are not *)
Theorem C88_rotation_accesses nsam nrot : 1 <= nsam ->
  (forall p, In p (rotate_accesses nsam nrot) -> 0 <= fst p < nsam /\ 0 <= snd p < nsam) <-> 0 <= nrot <= nsam.
Proof.
  intros Hs. unfold rotate_accesses. split.
  - intros H. destruct (Z.lt_ge_cases nrot 0) as [L|L]; [|destruct (Z.lt_ge_cases nsam nrot) as [L2|L2]; [|lia]]; exfalso.
    + specialize (H (nsam - nrot - 1, nrot + (nsam - nrot - 1))). cbn [fst snd] in H. enough (0 <= nsam - nrot - 1 < nsam) by lia. apply H. apply in_or_app. left. apply in_map_iff. exists (nsam - nrot - 1). split; [reflexivity|apply in_range; lia].
    + specialize (H (nsam - nrot + 0, 0)). cbn [fst snd] in H. enough (0 <= nsam - nrot + 0 < nsam) by lia. apply H. apply in_or_app. right. apply in_map_iff. exists 0. split; [reflexivity|apply in_range; lia].
  - intros Hn p Hp. apply in_app_or in Hp. destruct Hp as [Hp|Hp]; apply in_map_iff in Hp; destruct Hp as (it & <- & Hi); apply in_range in Hi; cbn [fst snd]; lia.
Qed.
Print Assumptions C88_rotation_accesses.
(** The program computes the number of samples from trot with a conversion at the wrong place: any trot below one second gives zero,
    whatever the sample distance and whatever nrot the user gave *)
Lemma Int_part_small r : (0 <= r < 1)%R -> Int_part r = 0.
Proof. intros H. apply Int_part_is. cbn. lra. Qed.
Theorem C88_rotation_time_refuted trot d1 : (0 < d1)%R -> (0 <= trot)%R -> (trot + d1 / 2 < 1)%R -> nrot_used trot d1 = 0.
Proof.
  intros Hd Ht H1. unfold nrot_used, to_int. destruct (Rlt_dec 0 trot).
  - destruct (Rle_dec 0 (trot + / 2 * d1)); [|lra]. rewrite (Int_part_small (trot + / 2 * d1)%R) by lra. replace (0 / d1)%R with 0%R by (unfold Rdiv; ring). destruct (Rle_dec 0 0); [|lra]. now apply Int_part_small; lra.
  - assert (T : trot = 0%R) by lra. subst trot. destruct (Rle_dec 0 (0 - / 2 * d1)); [lra|]. rewrite (Int_part_small (- (0 - / 2 * d1))%R) by lra. replace (IZR (- 0) / d1)%R with 0%R by (cbn; unfold Rdiv; ring). destruct (Rle_dec 0 0); [|lra]. now apply Int_part_small; lra.
Qed.
Print Assumptions C88_rotation_time_refuted.
(** whole seconds are right *)
Theorem C88_rotation_seconds s d1 n : (0 < d1 < 2)%R -> 1 <= s -> IZR s = (IZR n * d1)%R -> nrot_used (IZR s) d1 = n.
Proof.
  intros Hd Hs E. assert (Hs' := IZR_le _ _ Hs). unfold nrot_used, to_int. destruct (Rlt_dec 0 (IZR s)); [|lra]. destruct (Rle_dec 0 (IZR s + / 2 * d1)); [|lra].
  rewrite (Int_part_is (IZR s + / 2 * d1)%R s) by lra. rewrite E. replace (IZR n * d1 / d1)%R with (IZR n) by (field; lra).
  assert (Hn : (0 <= IZR n)%R). { apply (Rmult_le_reg_r d1); lra. } destruct (Rle_dec 0 (IZR n)); [|lra]. apply Int_part_is. lra.
Qed.
Print Assumptions C88_rotation_seconds.
Lemma subtract_row (d : Z -> R) a nsam s x : fold_left (fun d it => upd d (s + it) (d (s + it)%Z - a)%R) (range 0 nsam) d x = if (0 <=? x - s) && (x - s <? nsam) then (d x - a)%R else d x.
Proof.
  destruct (grid (fun _ q => s + q) (fun _ q v => v - a)%R [0] (range 0 nsam) ltac:(repeat constructor; intros []) (range_NoDup _ _)) with (m := d) as [G1 G2].
  - intros u b u' b' [<-|[]] Hb [<-|[]] Hb' E. lia.
  - cbn [fold_left] in G1, G2. destruct (Z.leb_spec 0 (x - s)), (Z.ltb_spec (x - s) nsam); cbn [andb]; try (apply G2; intros _ q _ Hq; apply in_range in Hq; lia).
    replace x with (s + (x - s)) by ring. apply (G1 0 (x - s)); [now left|apply in_range; lia].
Qed.
(** rmat: every trace loses its average *)
Theorem C88_trace_average data nsam nrec : 1 <= nsam -> 0 <= nrec ->
  let r := rmat data nsam nrec in
  (forall i t, 0 <= i < nrec -> 0 <= t < nsam -> r (i * nsam + t) = (data (i * nsam + t)%Z - Sum nsam (trace_of data nsam i) / IZR nsam)%R) /\
  (forall i, 0 <= i < nrec -> Sum nsam (trace_of r nsam i) = 0%R) /\ (forall x, ~ 0 <= x < nrec * nsam -> r x = data x).
Proof.
  intros Hs Hr r. assert (Nz : IZR nsam <> 0%R) by (apply not_0_IZR; lia).
  destruct (fold_rows (fun d ix => fold_left (fun d' it => upd d' (ix * nsam + it) (d' (ix * nsam + it)%Z - fold_left (fun a it => (a + d (ix * nsam + it)%Z)%R) (range 0 nsam) 0%R / IZR nsam)%R) (range 0 nsam) d)
    (fun _ q t => (q t - Sum nsam q / IZR nsam)%R) nsam nrec data Hr) as [G1 G2].
  - intros o i x Hi. rewrite (fold_sum (fun it => o (i * nsam + it))) by lia. rewrite subtract_row. rewrite Rplus_0_l. replace (i * nsam + (x - i * nsam)) with x by ring. reflexivity.
  - intros i q q' t Hi E Ht. rewrite E by exact Ht. now rewrite (Sum_ext nsam q q') by exact E.
  - split; [exact G1|]. split; [|exact G2]. intros i Hi. rewrite (Sum_ext nsam _ (fun t => trace_of data nsam i t + - (Sum nsam (trace_of data nsam i) / IZR nsam) * 1)%R) by (intros t Ht; unfold trace_of at 1, r, rmat; cbv zeta; rewrite (G1 i t Hi Ht); unfold trace_of; ring).
    rewrite Sum_add, Sum_scale. replace (Sum nsam (fun _ => 1%R)) with (IZR nsam); [field; exact Nz|]. symmetry.
    assert (S1 : forall k, sum k (fun _ => 1%R) = INR k) by (induction k as [|k IH]; [reflexivity|]; rewrite S_INR; cbn [sum]; now rewrite IH). unfold Sum. rewrite S1, INR_IZR_INZ, Z2Nat.id by lia. reflexivity.
Qed.
Print Assumptions C88_trace_average.
(** rma: the gather loses its average *)
Lemma Sum_const n a : 0 <= n -> Sum n (fun _ => a) = (IZR n * a)%R.
Proof.
  intros H. assert (S1 : forall k, sum k (fun _ => a) = (INR k * a)%R) by (induction k as [|k IH]; [cbn; ring|]; rewrite S_INR; cbn [sum]; rewrite IH; ring). unfold Sum. rewrite S1, INR_IZR_INZ, Z2Nat.id by lia. reflexivity.
Qed.
Theorem C88_average data nsam nrec : 1 <= nsam -> 1 <= nrec ->
  let r := rma data nsam nrec in
  (exists a, forall x, r x = if (0 <=? x) && (x <? nrec * nsam) then (data x - a)%R else data x) /\
  Sum nrec (fun i => Sum nsam (trace_of r nsam i)) = 0%R.
Proof.
  intros Hs Hr r. set (a := (Sum nrec (fun i => Sum nsam (trace_of data nsam i)) / IZR (nrec * nsam))%R).
  assert (A : (fold_left (fun a ix => fold_left (fun a it => (a + data (ix * nsam + it)%Z)%R) (range 0 nsam) a) (range 0 nrec) 0 / IZR (nrec * nsam))%R = a).
  { unfold a. f_equal. rewrite (PropertiesDft.fold_left_ext _ (fun a i => (a + Sum nsam (trace_of data nsam i))%R)) by (intros u i _; now rewrite (fold_sum (fun it => data (i * nsam + it))) by lia). rewrite fold_sum by lia. ring. }
  destruct (fold_rows (fun d ix => fold_left (fun d' it => upd d' (ix * nsam + it) (d' (ix * nsam + it)%Z - a)%R) (range 0 nsam) d) (fun _ q t => (q t - a)%R) nsam nrec data ltac:(lia)) as [G1 G2].
  { intros o i x Hi. rewrite subtract_row. replace (i * nsam + (x - i * nsam)) with x by ring. reflexivity. }
  { intros i q q' t Hi E Ht. now rewrite E. }
  assert (X : forall x, r x = if (0 <=? x) && (x <? nrec * nsam) then (data x - a)%R else data x).
  { intros x. unfold r, rma. cbv zeta. rewrite A. destruct (Z.leb_spec 0 x), (Z.ltb_spec x (nrec * nsam)); cbn [andb]; try (apply G2; lia).
    pose proof (Z.div_mod x nsam ltac:(lia)) as D. pose proof (Z.mod_pos_bound x nsam ltac:(lia)). replace x with (x / nsam * nsam + x mod nsam) by lia. apply G1; [|lia]. split; [apply Z.div_pos; lia|apply Z.div_lt_upper_bound; lia]. }
  split; [exists a; exact X|].
  rewrite (Sum_ext nrec _ (fun i => Sum nsam (trace_of data nsam i) + - (IZR nsam * a))%R).
  - rewrite Sum_add, Sum_const by lia. unfold a. rewrite mult_IZR. field. split; apply not_0_IZR; lia.
  - intros i Hi. rewrite (Sum_ext nsam _ (fun t => trace_of data nsam i t + - a)%R).
    + rewrite Sum_add, Sum_const by lia. ring.
    + intros t Ht. unfold trace_of. rewrite X. destruct (Z.leb_spec 0 (i * nsam + t)), (Z.ltb_spec (i * nsam + t) (nrec * nsam)); cbn [andb]; try ring; nia.
Qed.
Print Assumptions C88_average.
(** a cosine of 4 samples: envelope one, Hilbert transform not zero; a rotation over 2 of 5 samples; trot = 0.1 s with 4 ms *)
Example C88_nonvacuous : optncr 4 = 4 /\ (exists h, is_hilbert 4 (padded cosine4 4 0) h /\ forall junkc t, 0 <= t < 4 -> Envelope junkc cosine4 4 1 t = sqrt (cosine4 t * cosine4 t + h t * h t)) /\
  timeRotate (fun x => IZR x) 5 1 2 0 = 3%R /\ nrot_used (1 / 10)%R (4 / 1000)%R = 0 /\ nrot_used 2%R (/ 250)%R = 500.
Proof.
  split; [exact optncr_4|]. split; [|split; [|split]].
  - exists (fun t => 2 * synth 4 (hc 4 (padded cosine4 4 0)) t)%R. split; [now apply hilbert_exists|]. intros junkc t Ht. change t with (0 * 4 + t) at 1.
    destruct cosine4_spectrum as (_ & S0 & S2). rewrite (C88_envelope junkc cosine4 4 1 0 t (fun t => 2 * synth 4 (hc 4 (padded cosine4 4 0)) t)%R); rewrite ?optncr_4; try lia; try assumption; [reflexivity| |now apply hilbert_exists].
    intros k Hk. replace k with 2 by lia. exact S2.
  - destruct (C88_rotation (fun x => IZR x) 5 1 2 ltac:(lia) ltac:(lia) ltac:(lia)) as [R _]. cbv zeta in R. exact (R 0 0 ltac:(lia) ltac:(lia)).
  - apply C88_rotation_time_refuted; lra.
  - apply (C88_rotation_seconds 2 (/ 250)%R 500); lra || lia.
Qed.
