From Coq Require Import ZArith Reals List Bool Lia Lra.
From Verif Require Import ListAux FdKernels FdProofs FdOutputProofs Marchenko MarchenkoProofs KissFft FftSize FftSpec FftAux FftInverse LibFft PropertiesDft PropertiesRealFft FftLayout PropertiesFftLayout FconvSpec FconvProofs Wavelet WaveletSpec.
Import ListNotations.
Local Open Scope Z_scope.

(** a loop that changes each element of a range once, as a function of the old value *)
Lemma fold_map {V} (f : Z -> V -> V) (a b : Z) (m : Z -> V) x :
  fold_left (fun m i => upd m i (f i (m i))) (range a b) m x = if (a <=? x) && (x <? b) then f x (m x) else m x.
Proof.
  destruct (Z.le_gt_cases b a) as [L|L].
  - rewrite range_nil by lia. cbn [fold_left]. destruct (Z.leb_spec a x), (Z.ltb_spec x b); cbn [andb]; try reflexivity; lia.
  - replace b with (a + Z.of_nat (Z.to_nat (b - a))) by lia. generalize (Z.to_nat (b - a)). clear L b. intros n. induction n as [|n IH].
    + rewrite range_nil by lia. cbn [fold_left]. destruct (Z.leb_spec a x), (Z.ltb_spec x (a + Z.of_nat 0)); cbn [andb]; try reflexivity; lia.
    + replace (a + Z.of_nat (S n)) with (a + Z.of_nat n + 1) by lia. rewrite range_snoc by lia. rewrite fold_left_app. cbn [fold_left].
      rewrite upd_eq. destruct (Z.eqb_spec x (a + Z.of_nat n)) as [->|N].
      * set (y := a + Z.of_nat n) in *. rewrite IH. destruct (Z.leb_spec a y), (Z.ltb_spec y y), (Z.ltb_spec y (y + 1)); cbn [andb]; try reflexivity; lia.
      * rewrite IH. destruct (Z.leb_spec a x), (Z.ltb_spec x (a + Z.of_nat n)), (Z.ltb_spec x (a + Z.of_nat n + 1)); cbn [andb]; try reflexivity; lia.
Qed.
Notation H := conditioned.

Section ONE.
Variables (ns nt optn : Z) (ds : R).
Hypothesis Hns : 1 <= ns <= optn.
Hypothesis Hds : (0 < ds)%R.
Let N := optnscale ns nt optn.
Hypothesis HN : optn <= N.
Lemma trace_in_at w t : 0 <= t -> trace_in ns w t = silent ns w t.
Proof. intros Ht. unfold trace_in. rewrite fold_write. unfold silent. destruct (Z.leb_spec 0 t); [|lia]. destruct (t <? ns); reflexivity. Qed.
Lemma forward_at w k : forward ns optn w k = if (0 <=? k) && (k <=? optn / 2) then spectrum optn (silent ns w) k else c0.
Proof.
  unfold forward, nfreq. rewrite fold_write. replace (k <? optn / 2 + 1) with (k <=? optn / 2) by (destruct (Z.leb_spec k (optn / 2)), (Z.ltb_spec k (optn / 2 + 1)); lia).
  destruct ((0 <=? k) && (k <=? optn / 2)); [|reflexivity]. unfold spectrum. apply PropertiesFftLayout.dft_ext. intros i Hi. unfold real_values. rewrite trace_in_at by lia. reflexivity.
Qed.
Lemma deltom_omega k : (deltom optn ds * IZR k)%R = omega optn ds k.
Proof. unfold deltom, omega, Rdiv. ring. Qed.
Lemma integrate_at c k : integrate optn ds c k = if (1 <=? k) && (k <=? optn / 2) then integrated (omega optn ds k) (c k) else c k.
Proof.
  unfold integrate, nfreq. rewrite (fold_map (fun iw z => (1 / (deltom optn ds * IZR iw) * snd z, - (1 / (deltom optn ds * IZR iw)) * fst z)%R)).
  replace (k <? optn / 2 + 1) with (k <=? optn / 2) by (destruct (Z.leb_spec k (optn / 2)), (Z.ltb_spec k (optn / 2 + 1)); lia).
  destruct ((1 <=? k) && (k <=? optn / 2)); [|reflexivity]. rewrite deltom_omega. unfold integrated, Rdiv. f_equal; ring.
Qed.
Lemma shift_at tau c k : shift optn ds tau c k = if (1 <=? k) && (k <=? optn / 2) then delayed (omega optn ds k) tau (c k) else c k.
Proof.
  unfold shift, nfreq. rewrite (fold_map (fun iw z => (fst z * cos (- (deltom optn ds * IZR iw * tau)) - snd z * sin (- (deltom optn ds * IZR iw * tau)), snd z * cos (- (deltom optn ds * IZR iw * tau)) + fst z * sin (- (deltom optn ds * IZR iw * tau)))%R)).
  replace (k <? optn / 2 + 1) with (k <=? optn / 2) by (destruct (Z.leb_spec k (optn / 2)), (Z.ltb_spec k (optn / 2 + 1)); lia).
  destruct ((1 <=? k) && (k <=? optn / 2)); [|reflexivity]. rewrite deltom_omega. unfold delayed, FftSpec.times. cbn [fst snd]. rewrite cos_neg, sin_neg. f_equal; ring.
Qed.
Lemma filtered_at rate tau w k : 0 <= k <= N / 2 -> exists e : R,
  filtered ns nt optn ds rate tau (forward ns optn w) k = if k =? 0 then (e, 0%R) else if k <=? optn / 2 then H optn ds rate tau k (spectrum optn (silent ns w) k) else c0.
Proof.
  intros Hk. unfold filtered, extend. set (c := match tau with Some _ => _ | None => _ end).
  assert (Hc : 1 <= k <= optn / 2 -> c k = H optn ds rate tau k (spectrum optn (silent ns w) k)).
  { intros Hk'. unfold c, H. assert (A : (1 <=? k) && (k <=? optn / 2) = true) by (apply andb_true_iff; rewrite !Z.leb_le; lia).
    assert (B : forward ns optn w k = spectrum optn (silent ns w) k). { rewrite forward_at. now replace ((0 <=? k) && (k <=? optn / 2)) with true by (symmetry; apply andb_true_iff; rewrite !Z.leb_le; lia). }
    destruct tau, rate; rewrite ?shift_at, ?integrate_at, ?A, ?B; reflexivity. }
  assert (Ho : 0 <= optn / 2) by (apply Z.div_pos; lia).
  assert (Zf : exists e, zero_frequency c k = if k =? 0 then (e, 0%R) else c k).
  { unfold zero_frequency. destruct (Req_EM_T _ 0); rewrite upd_eq; destruct (k =? 0); eexists; reflexivity || exact 0%R. }
  destruct Zf as [e Zf]. exists e.
  rewrite (fold_write (fun _ => (0, 0)%R)) || rewrite (fold_map (fun _ _ => (0, 0)%R)).
  unfold nfreq, nfreqscale. fold N. rewrite Zf.
  destruct (Z.eqb_spec k 0) as [->|Nk].
  - destruct (Z.leb_spec (optn / 2 + 1) 0); [lia|]. reflexivity.
  - destruct (Z.leb_spec (optn / 2 + 1) k) as [L|L], (Z.leb_spec k (optn / 2)) as [L'|L']; try lia; cbn [andb].
    + destruct (Z.ltb_spec k (N / 2 + 1)); [reflexivity|lia].
    + apply Hc. lia.
Qed.
(** the signal from which the values are taken *)
Definition signal (rate : bool) (tau : option R) (w : Z -> R) (t : Z) : R :=
  (1 / IZR optn * fst (dft N 1 (hermitian N (filtered ns nt optn ds rate tau (forward ns optn w))) t))%R.
Lemma backward_at c t : 0 <= t < N -> backward ns nt optn c t = fst (dft N 1 (hermitian N c) t).
Proof. intros Ht. unfold backward. fold N. rewrite (fold_write (fun t => fst (dft N 1 (hermitian N c) t))). destruct (Z.leb_spec 0 t), (Z.ltb_spec t N); try lia. reflexivity. Qed.
Hypothesis Hnt : 1 <= nt <= N.
Lemma one_wavelet_at rate rev tau w j : 
  one_wavelet ns nt optn ds rate rev tau w j = if (0 <=? j) && (j <? nt) then
    (if rev then signal rate tau w (nt - j - 1) - signal rate tau w 0 else signal rate tau w j - signal rate tau w (nt - 1))%R else w j.
Proof.
  unfold one_wavelet, stored. set (tr := backward _ _ _ _).
  rewrite (fold_write (fun j => if rev then 1 / IZR optn * (tr (nt - j - 1)%Z - tr 0%Z) else 1 / IZR optn * (tr j - tr (nt - 1)%Z))%R).
  destruct (Z.leb_spec 0 j), (Z.ltb_spec j nt); cbn [andb]; try reflexivity. unfold tr, signal.
  destruct rev; rewrite !backward_at by lia; ring.
Qed.
Lemma signal_spectrum rate tau w k : 1 <= k -> 2 * k < N ->
  spectrum N (signal rate tau w) k = if k <=? optn / 2 then scaled (IZR N / IZR optn) (H optn ds rate tau k (spectrum optn (silent ns w) k)) else (0, 0)%R.
Proof.
  intros Hk HkN. assert (Hk2 : 0 <= k <= N / 2) by (split; [lia|apply Z.div_le_lower_bound; lia]).
  destruct (filtered_at rate tau w k Hk2) as [e E]. destruct (Z.eqb_spec k 0); [lia|].
  set (c := filtered ns nt optn ds rate tau (forward ns optn w)) in *.
  set (c' := fun k => if (k =? 0) || (2 * k =? N) then (fst (c k), 0%R) else c k).
  assert (Hh : forall k, 0 <= k < N -> hermitian N c k = hermitian N c' k).
  { intros m Hm. unfold hermitian, c'. destruct (Z.eqb_spec m 0) as [->|N0]; [reflexivity|]. destruct (Z.ltb_spec (2 * m) N).
    - destruct (Z.eqb_spec (2 * m) N); [lia|reflexivity].
    - destruct (Z.eqb_spec (2 * m) N); [cbn [orb fst]; reflexivity|]. destruct (Z.eqb_spec (N - m) 0); [lia|]. destruct (Z.eqb_spec (2 * (N - m)) N); [lia|]. reflexivity. }
  assert (N1 : 1 <= N) by lia.
  assert (C0 : snd (c' 0) = 0%R) by reflexivity.
  assert (C2 : 2 * (N / 2) = N -> snd (c' (N / 2)) = 0%R). { intros Q. unfold c'. rewrite Q, Z.eqb_refl, orb_true_r. reflexivity. }
  pose proof (spectrum_exists N N1 c' C0 C2 k Hk2) as S.
  assert (Mz : IZR optn <> 0%R) by (apply not_0_IZR; lia). assert (Nz : IZR N <> 0%R) by (apply not_0_IZR; lia).
  assert (SC : spectrum N (signal rate tau w) k = scaled (IZR N / IZR optn) (c' k)).
  { rewrite S. unfold spectrum, signal. fold c.
    transitivity (dft N (-1) (fun t => cadd (cmul (IZR N / IZR optn, 0)%R (real_values (fun t => / IZR N * fst (dft N 1 (hermitian N c') t))%R t)) (cmul c0 c0)) k).
    - apply PropertiesFftLayout.dft_ext. intros i Hi. unfold real_values, cadd, cmul, c0. cbn [fst snd].
      rewrite (PropertiesFftLayout.dft_ext N 1 (hermitian N c) (hermitian N c') i Hh). f_equal; field; split; assumption.
    - rewrite dft_lin. unfold cadd, cmul, scaled, c0. cbn [fst snd]. f_equal; ring. }
  rewrite SC. assert (CK : c' k = c k). { unfold c'. destruct (Z.eqb_spec k 0); [lia|]. destruct (Z.eqb_spec (2 * k) N); [lia|]. reflexivity. }
  rewrite CK. rewrite E. destruct (k <=? optn / 2); [reflexivity|]. unfold scaled, c0. cbn [fst snd]. f_equal; ring.
Qed.
Lemma spectrum_lift q (a : R) k : 0 <= k <= optn / 2 -> spectrum optn (fun t => q t + a)%R k = if k =? 0 then cadd (spectrum optn q 0) (IZR optn * a, 0)%R else spectrum optn q k.
Proof.
  intros Hk. assert (Hk' : k < optn) by (assert (optn / 2 < optn) by (apply Z.div_lt; lia); lia). unfold spectrum.
  rewrite (PropertiesFftLayout.dft_ext optn (-1) _ (fun t => cadd (real_values q t) (a, 0)%R)) by (intros i _; unfold real_values, cadd; cbn [fst snd]; f_equal; ring).
  unfold dft at 1. rewrite (total_ext _ _ (fun j => cadd (times (real_values q j) (root optn (-1) (j * k))) (cmul (a, 0)%R (root optn (-1) (j * k))))) by (intros j _; unfold FftSpec.times, cadd, cmul, real_values; cbn [fst snd]; f_equal; ring).
  rewrite total_add, total_mul_l. destruct (Z.eqb_spec k 0) as [->|Nk].
  - rewrite (total_ext (Z.to_nat optn) (fun i => root optn (-1) (i * 0)) (fun _ => c1)) by (intros i _; rewrite Z.mul_0_r; apply root_0).
    rewrite total_const, INR_IZR_INZ, Z2Nat.id by lia. unfold dft. f_equal. unfold cmul, scaled, c1. cbn [fst snd]. f_equal; ring.
  - rewrite total_root_zero; [|right; reflexivity|lia|rewrite Z.mod_small by lia; lia]. unfold dft. apply C_eq; unfold cadd, cmul, c0; cbn [fst snd]; ring.
Qed.
End ONE.

(** a spectrum of m values, extended with zeroes to n = r m values: every r-th value of the finer signal is a value of the coarse one *)
Section FINE.
Variables (r m : Z) (c : Z -> C).
Hypothesis Hr : 2 <= r.
Hypothesis Hm : 1 <= m.
Hypothesis Hz : forall k, m / 2 < k <= (r * m) / 2 -> c k = c0.
Hypothesis Hy : 2 * (m / 2) = m -> c (m / 2) = c0.
Lemma fine j : dft (r * m) 1 (hermitian (r * m) c) (r * j) = dft m 1 (hermitian m c) j.
Proof.
  pose proof (Z.div_mod m 2 ltac:(lia)). pose proof (Z.mod_pos_bound m 2 ltac:(lia)).
  pose proof (Z.div_mod (r * m) 2 ltac:(lia)). pose proof (Z.mod_pos_bound (r * m) 2 ltac:(lia)).
  assert (B : 2 * m <= r * m) by nia. set (n := r * m) in *. set (h := m - m / 2).
  assert (S1 : (1 = 1 \/ 1 = -1)%Z) by (left; reflexivity).
  unfold dft.
  replace (Z.to_nat n) with (Z.to_nat h + (Z.to_nat (n - m) + Z.to_nat (m - h)))%nat by (unfold h; lia).
  replace (Z.to_nat m) with (Z.to_nat h + Z.to_nat (m - h))%nat by (unfold h; lia).
  rewrite !total_app. f_equal; [|rewrite (total_zero (Z.to_nat (n - m)))].
  - apply total_ext. intros i Hi. rewrite Z2Nat.id in Hi by (unfold h; lia). f_equal.
    + unfold hermitian. destruct (i =? 0); [reflexivity|]. destruct (Z.ltb_spec (2 * i) n), (Z.ltb_spec (2 * i) m); try (unfold h in Hi; lia). reflexivity.
    + replace (i * (r * j)) with (r * (i * j)) by ring. unfold n. apply root_scale; lia.
  - transitivity (total (Z.to_nat (m - h)) (fun i => times (hermitian n c (Z.of_nat (Z.to_nat h) + (Z.of_nat (Z.to_nat (n - m)) + i))) (root n 1 ((Z.of_nat (Z.to_nat h) + (Z.of_nat (Z.to_nat (n - m)) + i)) * (r * j))))).
    { unfold cadd, c0. cbn [fst snd]. rewrite !Rplus_0_l. now destruct (total _ _). }
    apply total_ext. intros i Hi. rewrite !Z2Nat.id in * by (unfold h; lia). set (k := h + i). replace (h + (n - m + i)) with (n - m + k) by (unfold k; ring).
    assert (Hk : h <= k < m) by (unfold k; lia). f_equal.
    + unfold hermitian. destruct (Z.eqb_spec (n - m + k) 0); [lia|]. destruct (Z.eqb_spec k 0); [unfold h in *; lia|].
      destruct (Z.ltb_spec (2 * (n - m + k)) n); [unfold h in *; lia|]. destruct (Z.ltb_spec (2 * k) m); [unfold h in *; lia|].
      destruct (Z.eqb_spec (2 * (n - m + k)) n); [unfold h in *; lia|]. replace (n - (n - m + k)) with (m - k) by ring.
      destruct (Z.eqb_spec (2 * k) m); [|reflexivity]. replace (m - k) with (m / 2) by lia. replace k with (m / 2) by lia. rewrite Hy by lia. unfold c0. cbn [fst snd]. now rewrite Ropp_0.
    + replace ((n - m + k) * (r * j)) with (r * (m * ((r - 1) * j) + k * j)) by (unfold n; ring). unfold n. rewrite root_scale by lia.
      rewrite (root_add 1 S1), root_mult by lia. unfold cmul, c1. cbn [fst snd]. rewrite !Rmult_1_l, !Rmult_0_l, Rminus_0_r, Rplus_0_r. now destruct (root _ _ _).
  - intros i Hi. rewrite !Z2Nat.id in * by (unfold h; lia). set (k := h + i).
    assert (E : hermitian n c k = c0).
    { unfold hermitian. destruct (Z.eqb_spec k 0); [unfold k, h in *; lia|]. destruct (Z.ltb_spec (2 * k) n).
      - destruct (Z.eq_dec k (m / 2)) as [K|]; [rewrite K; apply Hy; unfold k, h in *; lia|]. apply Hz. unfold k, h in *. lia.
      - destruct (Z.eqb_spec (2 * k) n).
        + rewrite Hz by (unfold k, h in *; lia). reflexivity.
        + rewrite Hz by (unfold k, h in *; lia). unfold c0. cbn [fst snd]. now rewrite Ropp_0. }
    rewrite E. unfold FftSpec.times, c0. cbn [fst snd]. f_equal; ring.
Qed.
End FINE.

Section SAMPLES.
Variables (ns nt optn : Z) (ds : R).
Hypothesis Hns : 1 <= ns <= optn.
Hypothesis Hds : (0 < ds)%R.
(** without filter the signal is the wavelet plus a constant *)
Lemma plain_constant r w : 1 <= r -> optnscale ns nt optn = r * optn ->
  (2 <= r -> 2 * (optn / 2) = optn -> spectrum optn (silent ns w) (optn / 2) = c0) ->
  exists a : R, forall t, 0 <= t < optn -> signal ns nt optn ds true None w (r * t) = (silent ns w t + a)%R.
Proof.
  intros Hr HN Hq. assert (HN' : optn <= optnscale ns nt optn) by nia. assert (Mz : IZR optn <> 0%R) by (apply not_0_IZR; lia).
  set (c := filtered ns nt optn ds true None (forward ns optn w)).
  pose proof (fun k => filtered_at ns nt optn ds Hns true None w k) as F. fold c in F. rewrite HN in *.
  assert (O2 : 0 <= optn / 2) by (apply Z.div_pos; lia). assert (O3 : optn / 2 <= (r * optn) / 2) by (apply Z.div_le_mono; nia).
  destruct (F 0 ltac:(lia)) as [e E]. cbn [Z.eqb] in E.
  set (q := silent ns w) in *. assert (O1 : 1 <= optn) by lia. pose proof (spectrum_ends optn O1 q) as [Q0 _].
  set (a := ((e - fst (spectrum optn q 0)) / IZR optn)%R). exists a. intros t Ht.
  assert (B : fst (dft (r * optn) 1 (hermitian (r * optn) c) (r * t)) = fst (dft optn 1 (hermitian optn c) t)).
  { destruct (Z.eq_dec r 1) as [->|]; [now rewrite !Z.mul_1_l|]. f_equal. apply fine; try lia.
    - intros k Hk. destruct (F k ltac:(lia)) as [e' E']. destruct (Z.eqb_spec k 0); [lia|]. destruct (Z.leb_spec k (optn / 2)); [lia|]. exact E'.
    - intros Eo. destruct (F (optn / 2) ltac:(lia)) as [e' E']. destruct (Z.eqb_spec (optn / 2) 0); [lia|]. destruct (Z.leb_spec (optn / 2) (optn / 2)); [|lia]. rewrite E'. cbn [conditioned]. apply Hq; lia. }
  unfold signal. rewrite HN. fold c. rewrite B. rewrite (back optn O1 (fun t => q t + a)%R).
  - field. exact Mz.
  - intros k Hk. rewrite (spectrum_lift ns nt optn Hns q a k Hk). destruct (F k ltac:(lia)) as [e' E']. destruct (Z.eqb_spec k 0) as [->|].
    + rewrite E. apply C_eq; unfold cadd; cbn [fst snd]; [|lra]. unfold a. field. exact Mz.
    + destruct (Z.leb_spec k (optn / 2)); [|lia]. exact E'.
  - exact Ht.
Qed.
End SAMPLES.
(** the largest value *)
Lemma maxampl_peak nt s : 1 <= nt -> is_peak (maxampl nt s) s nt.
Proof.
  intros Hnt. unfold maxampl, is_peak. replace nt with (Z.of_nat (Z.to_nat nt)) by lia. set (n := Z.to_nat nt). assert (Hn : (1 <= n)%nat) by lia. clearbody n. clear Hnt nt.
  induction n as [|n IH]; [lia|]. replace (Z.of_nat (S n)) with (Z.of_nat n + 1) by lia. rewrite range_snoc by lia. rewrite fold_left_app. cbn [fold_left].
  destruct n as [|n].
  - cbn [fold_left range Z.of_nat]. rewrite range_nil by lia. cbn [fold_left]. split.
    + intros j Hj. replace j with 0%Z by lia. apply Rmax_r.
    + exists 0%Z. split; [lia|]. rewrite Rmax_right; [reflexivity|apply Rabs_pos].
  - destruct (IH ltac:(lia)) as [U [j [Hj Ej]]]. set (M := fold_left _ _ _) in *. split.
    + intros i Hi. destruct (Z.eq_dec i (Z.of_nat (S n))) as [->|]; [apply Rmax_r|]. eapply Rle_trans; [apply U; lia|apply Rmax_l].
    + destruct (Rle_dec M (Rabs (s (Z.of_nat (S n))))) as [L|L].
      * exists (Z.of_nat (S n)). split; [lia|]. now rewrite Rmax_right.
      * exists j. split; [lia|]. rewrite Rmax_left; [exact Ej|lra].
Qed.
Lemma threshold_at m nt (s : Z -> R) j : fold_left (fun s j => if Rlt_dec (Rabs (s j)) m then upd s j 0%R else s) (range 0 nt) s j =
  if (0 <=? j) && (j <? nt) then (if Rlt_dec (Rabs (s j)) m then 0%R else s j) else s j.
Proof.
  rewrite <- (fold_map (fun _ v => if Rlt_dec (Rabs v) m then 0%R else v)).
  assert (E : forall l s s', (forall x, s x = s' x) -> forall x, fold_left (fun s j => if Rlt_dec (Rabs (s j)) m then upd s j 0%R else s) l s x =
     fold_left (fun s' i => upd s' i (if Rlt_dec (Rabs (s' i)) m then 0%R else s' i)) l s' x).
  { clear. induction l as [|a l IH]; intros s s' Hs x; cbn [fold_left]; [apply Hs|]. apply IH. intros y. rewrite upd_eq, <- (Hs a).
    destruct (Rlt_dec (Rabs (s a)) m); [rewrite upd_eq|]; destruct (Z.eqb_spec y a) as [->|]; auto. }
  apply E. reflexivity.
Qed.
