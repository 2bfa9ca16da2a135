From Coq Require Import ZArith Reals List Bool Lia Lra.
From Verif Require Import ListAux FdKernels FdProofs FdOutputProofs Marchenko MarchenkoProofs KissFft FftSize FftSpec FftAux FftInverse LibFft PropertiesDft PropertiesRealFft FftLayout PropertiesFftLayout FconvSpec Fconv FconvProofs BasopSpec Basop.
Import ListNotations.
Local Open Scope Z_scope.

(** the signal of a spectrum, and its spectrum *)
Definition synth (n : Z) (c : Z -> C) (t : Z) : R := (/ IZR n * fst (dft n 1 (hermitian n c) t))%R.
Lemma synth_spectrum n c k : 1 <= n -> 0 <= k <= n / 2 -> spectrum n (synth n c) k = if (k =? 0) || (2 * k =? n) then (fst (c k), 0%R) else c k.
Proof.
  intros Hn Hk. set (c' := fun k => if (k =? 0) || (2 * k =? n) then (fst (c k), 0%R) else c k).
  assert (Hh : forall k, 0 <= k < n -> hermitian n c k = hermitian n c' k).
  { intros m Hm. unfold hermitian, c'. destruct (Z.eqb_spec m 0) as [->|N0]; [reflexivity|]. destruct (Z.ltb_spec (2 * m) n).
    - destruct (Z.eqb_spec (2 * m) n); [lia|reflexivity].
    - destruct (Z.eqb_spec (2 * m) n); [cbn [orb fst]; reflexivity|]. destruct (Z.eqb_spec (n - m) 0); [lia|]. destruct (Z.eqb_spec (2 * (n - m)) n); [lia|]. reflexivity. }
  assert (C0 : snd (c' 0) = 0%R) by reflexivity.
  assert (C2 : 2 * (n / 2) = n -> snd (c' (n / 2)) = 0%R). { intros Q. unfold c'. rewrite Q, Z.eqb_refl, orb_true_r. reflexivity. }
  change (spectrum n (synth n c) k = c' k). rewrite (spectrum_exists n Hn c' C0 C2 k Hk). apply spectrum_ext. intros t Ht. unfold synth.
  rewrite (PropertiesFftLayout.dft_ext n 1 _ _ t Hh). reflexivity.
Qed.
(** a loop over one row *)
Lemma fold_row {V} (v : Z -> V) s a b (o : Z -> V) x :
  fold_left (fun o j => upd o (s + j) (v j)) (range a b) o x = if (a <=? x - s) && (x - s <? b) then v (x - s) else o x.
Proof.
  destruct (Z.le_gt_cases b a) as [L|L].
  - rewrite range_nil by lia. cbn [fold_left]. destruct (Z.leb_spec a (x - s)), (Z.ltb_spec (x - s) b); cbn [andb]; try reflexivity; lia.
  - replace b with (a + Z.of_nat (Z.to_nat (b - a))) by lia. generalize (Z.to_nat (b - a)). clear L b. intros n. induction n as [|n IH].
    + rewrite range_nil by lia. cbn [fold_left]. destruct (Z.leb_spec a (x - s)), (Z.ltb_spec (x - s) (a + Z.of_nat 0)); cbn [andb]; try reflexivity; lia.
    + replace (a + Z.of_nat (S n)) with (a + Z.of_nat n + 1) by lia. rewrite range_snoc by lia. rewrite fold_left_app. cbn [fold_left].
      rewrite upd_eq. destruct (Z.eqb_spec x (s + (a + Z.of_nat n))) as [E|N].
      * replace (x - s) with (a + Z.of_nat n) by lia. set (y := a + Z.of_nat n). destruct (Z.leb_spec a y), (Z.ltb_spec y (y + 1)); cbn [andb]; try reflexivity; lia.
      * rewrite IH. destruct (Z.leb_spec a (x - s)), (Z.ltb_spec (x - s) (a + Z.of_nat n)), (Z.ltb_spec (x - s) (a + Z.of_nat n + 1)); cbn [andb]; try reflexivity; lia.
Qed.
(** a loop over rows of length ld, each of which depends on the old values of its own row only *)
Lemma fold_rows {V} (body : (Z -> V) -> Z -> Z -> V) (g : Z -> (Z -> V) -> Z -> V) ld n o : 0 <= n ->
  (forall o i x, 0 <= i < n -> body o i x = if (0 <=? x - i * ld) && (x - i * ld <? ld) then g i (fun t => o (i * ld + t)) (x - i * ld) else o x) ->
  (forall i r r' t, 0 <= i < n -> (forall t, 0 <= t < ld -> r t = r' t) -> 0 <= t < ld -> g i r t = g i r' t) ->
  (forall i t, 0 <= i < n -> 0 <= t < ld -> fold_left body (range 0 n) o (i * ld + t) = g i (fun t => o (i * ld + t)) t) /\
  (forall x, ~ 0 <= x < n * ld -> fold_left body (range 0 n) o x = o x).
Proof.
  intros Hn B E.
  assert (K : forall m, 0 <= m -> m <= n -> 
    (forall i t, 0 <= i < n -> 0 <= t < ld -> fold_left body (range 0 m) o (i * ld + t) = if i <? m then g i (fun t => o (i * ld + t)) t else o (i * ld + t)) /\
    (forall x, ~ 0 <= x < n * ld -> fold_left body (range 0 m) o x = o x)).
  { refine (natlike_ind _ _ _).
    - intros _. rewrite range_nil by lia. cbn [fold_left]. split; [|auto]. intros i t Hi Ht. destruct (Z.ltb_spec i 0); [lia|reflexivity].
    - intros m Hm IH Hm2. unfold Z.succ in *. rewrite range_snoc, fold_left_app by lia. cbn [fold_left]. destruct (IH ltac:(lia)) as [I1 I2]. split.
      + intros i t Hi Ht. rewrite B by lia. destruct (Z.eq_dec i m) as [->|N].
        * replace (m * ld + t - m * ld) with t by ring. destruct (Z.leb_spec 0 t), (Z.ltb_spec t ld); try lia. cbn [andb]. destruct (Z.ltb_spec m (m + 1)); [|lia].
          apply E; [lia| |lia]. intros u Hu. rewrite I1 by lia. destruct (Z.ltb_spec m m); [lia|reflexivity].
        * rewrite I1 by assumption. replace (i <? m + 1) with (i <? m) by (destruct (Z.ltb_spec i m), (Z.ltb_spec i (m + 1)); lia).
          destruct (Z.leb_spec 0 (i * ld + t - m * ld)), (Z.ltb_spec (i * ld + t - m * ld) ld); try reflexivity. exfalso. assert (i = m) by nia. lia.
      + intros x Hx. rewrite B by lia. destruct (Z.leb_spec 0 (x - m * ld)), (Z.ltb_spec (x - m * ld) ld); cbn [andb]; try (now apply I2). exfalso. apply Hx. nia. }
  destruct (K n Hn (Z.le_refl n)) as [K1 K2]. split; [|exact K2]. intros i t Hi Ht. rewrite K1 by assumption. destruct (Z.ltb_spec i n); [reflexivity|lia].
Qed.

Section FILTER.
Variables (junkr : Z -> R) (junkc : Z -> C).
Lemma band_ok f lo hi nfreq nrec c o i k : 0 <= lo <= nfreq -> 0 <= hi <= nfreq -> 0 <= i < nrec -> 0 <= k < nfreq ->
  band f lo hi nfreq nrec c o (i * nfreq + k) = if (lo <=? k) && (k <? hi) then f k (c (i * nfreq + k)) else c0.
Proof.
  intros Hl Hh Hi Hk. unfold band.
  destruct (fold_rows (fun o ix => fold_left (fun o iom => upd o (ix * nfreq + iom) (f iom (c (ix * nfreq + iom)))) (range lo hi)
    (fold_left (fun o iom => upd o (ix * nfreq + iom) (0, 0)%R) (range hi nfreq) (fold_left (fun o iom => upd o (ix * nfreq + iom) (0, 0)%R) (range 0 lo) o)))
    (fun i _ k => if (lo <=? k) && (k <? hi) then f k (c (i * nfreq + k)) else c0) nfreq nrec o) as [G _]; [lia| |reflexivity|apply G; assumption].
  intros o' j x Hj. rewrite (fold_row (fun iom => f iom (c (j * nfreq + iom)))), !(fold_row (fun _ => (0, 0)%R)).
  destruct (Z.leb_spec lo (x - j * nfreq)), (Z.ltb_spec (x - j * nfreq) hi), (Z.leb_spec hi (x - j * nfreq)), (Z.leb_spec 0 (x - j * nfreq)), (Z.ltb_spec (x - j * nfreq) nfreq), (Z.ltb_spec (x - j * nfreq) lo); cbn [andb]; try reflexivity; lia.
Qed.
Lemma filtering_ok n lo hi f data nsam nrec : 1 <= nsam <= n -> 0 <= lo <= n / 2 + 1 -> 0 <= hi <= n / 2 + 1 ->
  let c i k := if (lo <=? k) && (k <? hi) then f k (spectrum n (padded data nsam i) k) else c0 in
  (forall i t, 0 <= i < nrec -> 0 <= t < nsam -> filtering junkr junkc n lo hi f data nsam nrec (i * nsam + t) = synth n (c i) t) /\
  (forall x, ~ 0 <= x < nrec * nsam -> filtering junkr junkc n lo hi f data nsam nrec x = data x).
Proof.
  intros Hs Hl Hh c. unfold filtering. cbv zeta. set (X := crmfft _ _ _ _ _ _ _). destruct (scl_data_ok X n nrec (1 / IZR n) data nsam) as [S1 S2]. split; [|exact S2].
  intros i t Hi Ht. rewrite S1 by assumption. unfold X. rewrite (proj1 (crmfft_ok _ _ n nrec (n / 2 + 1) n 1 (Z.le_refl n))) by lia.
  unfold synth. replace (1 / IZR n)%R with (/ IZR n)%R by (unfold Rdiv; ring). f_equal. f_equal. apply PropertiesFftLayout.dft_ext. intros k Hk. apply hermitian_ext; [lia|exact Hk|].
  intros j Hj. rewrite band_ok by lia. unfold c. replace (rcmfft (pad_data data nsam nrec n junkr) junkc n nrec n (n / 2 + 1) (-1) (i * (n / 2 + 1) + j)) with (spectrum n (padded data nsam i) j); [reflexivity|].
  rewrite rcmfft_ok by lia. unfold spectrum. apply PropertiesFftLayout.dft_ext. intros u Hu. unfold real_values, trace. rewrite pad_data_ok by lia. reflexivity.
Qed.
End FILTER.
