(** Properties of basop: filters in the frequency domain (C87). *)
From Coq Require Import ZArith Reals List Bool Lia Lra.
From Verif Require Import ListAux FdKernels FdProofs FdOutputProofs Marchenko MarchenkoProofs KissFft FftSize FftSpec FftAux FftInverse LibFft PropertiesDft PropertiesRealFft FftLayout PropertiesFftLayout FconvSpec Fconv FconvProofs PropertiesFconv PropertiesSource BasopSpec Basop BasopProofs.
Import ListNotations.
Local Opaque optncr.
Local Open Scope Z_scope.

(** ** auxiliary *)
Definition lowest (op : operation) : Z := match op with Shift _ => 0 | _ => 1 end.
Lemma scaled_frequency n dt f : 1 <= n -> (0 < dt)%R -> (2 * PI * f / deltom n dt = f * (IZR n * dt))%R.
Proof. intros Hn Hd. apply IZR_le in Hn. unfold deltom. pose proof PI_RGT_0. field. repeat split; lra. Qed.
Lemma Int_part_le r k : k <= Int_part r <-> (IZR k <= r)%R.
Proof.
  pose proof (base_Int_part r) as [B1 B2]. split.
  - intros H. apply IZR_le in H. lra.
  - intros H. apply Z.lt_succ_r. apply lt_IZR. unfold Z.succ. rewrite plus_IZR. lra.
Qed.
Lemma Int_part_lt r k : Int_part r < k <-> (r < IZR k)%R.
Proof. split; intros H; [apply Rnot_le_lt|apply Z.lt_nge]; rewrite <- Int_part_le || rewrite Int_part_le; try lia; lra. Qed.
Lemma limits n dt fmin fmax : 1 <= n -> (0 < dt)%R -> (0 <= fmin)%R -> (0 <= fmax)%R -> 0 <= iomin n dt fmin <= n / 2 + 1 /\ 0 <= iomax n dt fmax <= n / 2 + 1.
Proof.
  intros Hn Hd Hf Hg. assert (0 <= n / 2) by (apply Z.div_pos; lia). assert (Hn' := IZR_le _ _ Hn).
  assert (P : forall f, (0 <= f)%R -> (0 <= 2 * PI * f / deltom n dt)%R). { intros f F. rewrite scaled_frequency by assumption. apply Rmult_le_pos; [exact F|]. apply Rmult_le_pos; lra. }
  unfold iomin, iomax. split; [split|split].
  - apply Int_part_le. apply Rmin_glb; [now apply P|]. apply (IZR_le 0). lia.
  - apply le_IZR. eapply Rle_trans; [apply base_Int_part|apply Rmin_r].
  - apply Z.min_glb; [|lia]. apply Int_part_le. now apply P.
  - apply Z.le_min_r.
Qed.
Lemma frequency_lt n dt k f : 1 <= n -> (0 < dt)%R -> (f < frequency n dt k)%R <-> (f * (IZR n * dt) < IZR k)%R.
Proof.
  intros Hn Hd. apply IZR_le in Hn. assert (P : (0 < IZR n * dt)%R) by (apply Rmult_lt_0_compat; lra). unfold frequency. split; intros H.
  - apply (Rmult_lt_compat_r (IZR n * dt)) in H; [|exact P]. unfold Rdiv in H. rewrite Rmult_assoc, Rinv_l, Rmult_1_r in H by lra. exact H.
  - apply (Rmult_lt_reg_r (IZR n * dt)); [exact P|]. unfold Rdiv. rewrite Rmult_assoc, Rinv_l, Rmult_1_r by lra. exact H.
Qed.
Lemma in_band op n dt fmin fmax k : 1 <= n -> (0 < dt)%R -> 0 <= k <= n / 2 ->
  ((Z.max (iomin n dt fmin) (lowest op) <=? k) && (k <? iomax n dt fmax) = true) <-> passes op n dt fmin fmax k.
Proof.
  intros Hn Hd Hk. unfold passes. rewrite andb_true_iff, Z.leb_le, Z.ltb_lt, Z.max_lub_iff. unfold iomin, iomax. rewrite !scaled_frequency by assumption.
  rewrite (frequency_lt n dt (k + 1) fmin Hn Hd).
  assert (U : (frequency n dt (k + 1) <= fmax)%R <-> (IZR (k + 1) <= fmax * (IZR n * dt))%R).
  { split; intros H; apply Rnot_lt_le; intros Q; [apply frequency_lt in Q|apply frequency_lt in Q]; try assumption; lra. }
  rewrite U. clear U. set (a := (fmin * (IZR n * dt))%R). set (b := (fmax * (IZR n * dt))%R).
  assert (A : Int_part (Rmin a (IZR (n / 2 + 1))) <= k <-> (a < IZR (k + 1))%R).
  { transitivity (Int_part (Rmin a (IZR (n / 2 + 1))) < k + 1); [lia|]. rewrite Int_part_lt. assert (IZR (k + 1) <= IZR (n / 2 + 1))%R by (apply IZR_le; lia).
    unfold Rmin. destruct (Rle_dec a (IZR (n / 2 + 1))); [tauto|]. lra. }
  assert (B : k < Z.min (Int_part b) (n / 2 + 1) <-> (IZR (k + 1) <= b)%R). { rewrite <- Int_part_le. lia. }
  rewrite A, B. unfold lowest. destruct op; split; intros; intuition lia.
Qed.
Definition multiplied (op : operation) (n : Z) (dt : R) (k : Z) (z : C) : C := cmul (transfer op (2 * PI * frequency n dt k)) z.
Lemma om_frequency n dt k : 1 <= n -> (0 < dt)%R -> (deltom n dt * IZR k)%R = (2 * PI * frequency n dt k)%R.
Proof. intros Hn Hd. apply IZR_le in Hn. unfold deltom, frequency. field. split; lra. Qed.
Lemma C_pair (a b c d : R) : a = c -> b = d -> (a, b) = (c, d). Proof. now intros -> ->. Qed.
Lemma band_ext junkr junkc n lo hi f g data nsam nrec : (forall k z, f k z = g k z) -> filtering junkr junkc n lo hi f data nsam nrec = filtering junkr junkc n lo hi g data nsam nrec.
Proof.
  assert (X : forall l (a b : (Z -> C) -> Z -> (Z -> C)), (forall o k, a o k = b o k) -> forall o, fold_left a l o = fold_left b l o) by (intros l a b E; induction l as [|h l IH]; intros o; cbn [fold_left]; [reflexivity|rewrite E; apply IH]).
  intros H. unfold filtering. cbv zeta. f_equal. f_equal. unfold band. apply X. intros o i. apply X. intros o' k. now rewrite H.
Qed.
Lemma basop_filter junkr junkc op data nsam nrec dt fmin fmax : 1 <= optncr nsam -> (0 < dt)%R -> (0 <= fmin)%R ->
  basop junkr junkc op data nsam nrec dt fmin fmax =
  filtering junkr junkc (optncr nsam) (Z.max (iomin (optncr nsam) dt fmin) (lowest op)) (iomax (optncr nsam) dt fmax) (multiplied op (optncr nsam) dt) data nsam nrec.
Proof.
  intros Hn Hd Hf. destruct op; cbn [basop lowest];
  [unfold timeShift; rewrite (Z.max_l (iomin _ _ _) 0) by (apply (limits (optncr nsam) dt fmin fmin Hn Hd Hf Hf))|unfold phaseRot|unfold timeDiff|unfold timeDiff|unfold div_sjom|unfold div_sjom|unfold div_som|unfold div_som|unfold sqrtk|unfold sqrtk|unfold divk];
  cbv zeta; apply band_ext; intros k [x y]; unfold multiplied, cmul, transfer; cbn [fst snd]; rewrite ?om_frequency by assumption;
  set (om := (2 * PI * frequency (optncr nsam) dt k)%R); apply C_pair; rewrite ?cos_neg, ?sin_neg; try (replace (/ 4 * PI)%R with (PI / 4)%R by lra); unfold Rdiv; try ring.
Qed.

(** ** C87 *)
(** Every trace: the samples that are written are those of a signal whose spectrum is that of the trace, padded with zeroes, times the transfer
    function at the frequencies that pass and zero at the others.  At the highest frequency, n/2, only the real part counts.
    Nothing else is written. *)
Theorem C87_filters junkr junkc op data nsam nrec dt fmin fmax : 1 <= nsam <= optncr nsam -> (0 < dt)%R -> (0 <= fmin)%R -> (0 <= fmax)%R ->
  let n := optncr nsam in
  let r := basop junkr junkc op data nsam nrec dt fmin fmax in
  (forall i, 0 <= i < nrec -> exists y, (forall t, 0 <= t < nsam -> r (i * nsam + t) = y t) /\
    (forall k, 0 <= k -> 2 * k < n -> passes op n dt fmin fmax k -> spectrum n y k = cmul (transfer op (2 * PI * frequency n dt k)) (spectrum n (padded data nsam i) k)) /\
    (forall k, 0 <= k -> 2 * k = n -> passes op n dt fmin fmax k -> spectrum n y k = (fst (cmul (transfer op (2 * PI * frequency n dt k)) (spectrum n (padded data nsam i) k)), 0%R)) /\
    (forall k, 0 <= k <= n / 2 -> ~ passes op n dt fmin fmax k -> spectrum n y k = (0, 0)%R)) /\
  (forall x, ~ 0 <= x < nrec * nsam -> r x = data x).
Proof.
  intros Hs Hd Hf Hg n r. unfold r. rewrite basop_filter by (assumption || lia). fold n.
  destruct (limits n dt fmin fmax ltac:(lia) Hd Hf Hg) as [L1 L2]. assert (D : 0 <= n / 2) by (apply Z.div_pos; lia).
  assert (L3 : 0 <= Z.max (iomin n dt fmin) (lowest op) <= n / 2 + 1) by (destruct op; cbn [lowest]; lia).
  destruct (filtering_ok junkr junkc n _ _ (multiplied op n dt) data nsam nrec Hs L3 L2) as [F1 F2]. cbv zeta in F1. split; [|exact F2].
  intros i Hi. eexists. split; [intros t Ht; apply F1; assumption|].
  assert (I := fun k Hk => in_band op n dt fmin fmax k ltac:(lia) Hd Hk). repeat split.
  - intros k K0 K2 P. assert (Kn : 0 <= k <= n / 2) by (split; [lia|apply Z.div_le_lower_bound; lia]). rewrite synth_spectrum by lia. apply (I k Kn) in P. rewrite P.
    destruct (Z.eqb_spec (2 * k) n); [lia|]. rewrite orb_false_r. destruct (Z.eqb_spec k 0) as [->|]; [|reflexivity].
    destruct op; cbn [passes lowest] in *; try (exfalso; apply andb_true_iff in P; rewrite Z.leb_le in P; lia).
    unfold multiplied. replace (frequency n dt 0) with 0%R by (unfold frequency, Rdiv; ring). rewrite Rmult_0_r. cbn [transfer]. rewrite Rmult_0_l, cos_0, sin_0.
    pose proof (proj1 (spectrum_ends n ltac:(lia) (padded data nsam i))) as E. unfold cmul. cbn [fst snd]. rewrite E. f_equal; ring.
  - intros k K0 K2 P. assert (Kn : 0 <= k <= n / 2) by (split; [lia|apply Z.div_le_lower_bound; lia]). rewrite synth_spectrum by lia. apply (I k Kn) in P. rewrite P.
    rewrite (proj2 (Z.eqb_eq (2 * k) n)) by lia. rewrite orb_true_r. reflexivity.
  - intros k Kn P. rewrite synth_spectrum by lia. rewrite <- (I k Kn) in P. apply not_true_is_false in P. rewrite P. unfold c0. cbn [fst]. now destruct (_ || _).
Qed.
Print Assumptions C87_filters.

(** the spectrum determines the signal *)
Lemma spectrum_inj n a b : 1 <= n -> (forall k, 0 <= k <= n / 2 -> spectrum n a k = spectrum n b k) -> forall t, 0 <= t < n -> a t = b t.
Proof.
  intros Hn H t Ht. assert (N : IZR n <> 0%R) by (apply not_0_IZR; lia). apply (Rmult_eq_reg_l (IZR n)); [|exact N].
  rewrite <- (back n Hn a (spectrum n a) (fun k _ => eq_refl) t Ht). rewrite <- (back n Hn b (spectrum n a) H t Ht). reflexivity.
Qed.
Lemma default_passes op n dt k : 1 <= n -> (0 < dt)%R -> lowest op <= k -> 2 * k + 2 <= n -> 0 <= k -> passes op n dt 0 (default_fmax dt) k.
Proof.
  intros Hn Hd Hl Hk K0. assert (Hk' := IZR_le _ _ Hk). assert (Hn' := IZR_le _ _ Hn). rewrite plus_IZR, mult_IZR in Hk'. assert (K0' := IZR_le _ _ K0). unfold passes. split; [split|destruct op; cbn [lowest] in Hl; auto].
  - apply frequency_lt; try assumption. rewrite Rmult_0_l, plus_IZR. lra.
  - unfold frequency, default_fmax. rewrite plus_IZR. apply (Rmult_le_reg_r (IZR n * dt)); [apply Rmult_lt_0_compat; lra|]. unfold Rdiv. rewrite Rmult_assoc, Rinv_l, Rmult_1_r by (apply Rgt_not_eq, Rmult_lt_0_compat; lra).
    rewrite Rinv_mult, Rmult_1_l. replace (/ 2 * / dt * (IZR n * dt))%R with (IZR n / 2)%R by (field; lra). lra.
Qed.
Lemma default_stops op n dt k : 1 <= n -> (0 < dt)%R -> n < 2 * k + 2 -> ~ passes op n dt 0 (default_fmax dt) k.
Proof.
  intros Hn Hd Hk [[_ P] _]. assert (Hk' := IZR_lt _ _ Hk). rewrite plus_IZR, mult_IZR in Hk'. assert (Hn' := IZR_le _ _ Hn). apply Rle_not_lt in P. apply P. apply frequency_lt; try assumption.
  unfold default_fmax. rewrite plus_IZR. replace (1 / (2 * dt) * (IZR n * dt))%R with (IZR n / 2)%R by (field; lra). lra.
Qed.
(** A shift over m samples with the default frequencies: a circular shift of the padded trace, provided that the trace has no component
    at the highest frequency. *)
Theorem C87_shift_samples junkr junkc data nsam nrec dt m i t : 1 <= nsam <= optncr nsam -> Z.even (optncr nsam) = true -> (0 < dt)%R -> 0 <= i < nrec -> 0 <= t < nsam ->
  let n := optncr nsam in
  spectrum n (padded data nsam i) (n / 2) = (0, 0)%R ->
  basop junkr junkc (Shift (IZR m * dt)) data nsam nrec dt 0 (default_fmax dt) (i * nsam + t) = padded data nsam i ((t - m) mod n).
Proof.
  intros Hs Ev Hd Hi Ht n Hny. set (op := Shift (IZR m * dt)). assert (Hf : (0 <= default_fmax dt)%R) by (unfold default_fmax; apply Rlt_le, Rdiv_lt_0_compat; lra).
  destruct (C87_filters junkr junkc op data nsam nrec dt 0 (default_fmax dt) Hs Hd (Rle_refl 0) Hf) as [F _]. cbv zeta in F. fold n in F.
  destruct (F i Hi) as (y & Y1 & Y2 & Y3 & Y4). rewrite Y1 by exact Ht. clear F Y1 Y3. fold n in Ev.
  assert (E : n = 2 * (n / 2)) by (apply Zeven_bool_iff in Ev; apply Zeven_div2 in Ev; rewrite Zdiv2_div in Ev; exact Ev).
  apply (spectrum_inj n y (fun t => padded data nsam i ((t - m) mod n))); [lia| |lia]. intros k Hk. rewrite spectrum_delay by lia.
  destruct (Z.eq_dec k (n / 2)) as [->|N].
  - rewrite Hny, Y4 by (try lia; apply default_stops; try assumption; lia). unfold cmul. cbn [fst snd]. f_equal; ring.
  - rewrite Y2 by (try lia; apply default_passes; try assumption; cbn [lowest op]; lia). f_equal. unfold transfer, op, root.
    assert (Nn : IZR n <> 0%R) by (apply not_0_IZR; lia).
    assert (A : (2 * PI * frequency n dt k * (IZR m * dt) = 2 * PI * IZR (m * k) / IZR n)%R) by (unfold frequency; rewrite mult_IZR; field; split; [exact Nn|lra]).
    rewrite A. apply C_pair; ring.
Qed.
Print Assumptions C87_shift_samples.
(** If the padding is at least m samples, the trace is delayed and zeroes come in. *)
Theorem C87_delay junkr junkc data nsam nrec dt m i t : 1 <= nsam <= optncr nsam -> Z.even (optncr nsam) = true -> (0 < dt)%R -> 0 <= i < nrec -> 0 <= t < nsam ->
  let n := optncr nsam in
  spectrum n (padded data nsam i) (n / 2) = (0, 0)%R -> 0 <= m <= n - nsam ->
  basop junkr junkc (Shift (IZR m * dt)) data nsam nrec dt 0 (default_fmax dt) (i * nsam + t) = if t <? m then 0%R else trace_of data nsam i (t - m).
Proof.
  intros Hs Ev Hd Hi Ht n Hny Hm. rewrite C87_shift_samples by assumption. fold n. destruct (Z.ltb_spec t m).
  - replace ((t - m) mod n) with (t - m + n) by (apply (Z.mod_unique_pos _ _ (-1)); lia). unfold padded. destruct (Z.ltb_spec (t - m + n) nsam); [lia|reflexivity].
  - rewrite Z.mod_small by lia. unfold padded, trace_of. destruct (Z.ltb_spec (t - m) nsam); [reflexivity|lia].
Qed.
Print Assumptions C87_delay.
(** With a component at the highest frequency this is false: it is lost, even by a shift over zero samples. *)
Definition impulse_gather : Z -> R := fun x => if x =? 0 then 1%R else 0%R.
Theorem C87_highest_frequency_lost_refuted : exists data nsam dt, optncr nsam = nsam /\ (0 < dt)%R /\
  forall junkr junkc, exists t, 0 <= t < nsam /\ basop junkr junkc (Shift 0) data nsam 1 dt 0 (default_fmax dt) t <> data t.
Proof.
  exists impulse_gather, 4, 1%R. split; [exact optncr_4|]. split; [lra|]. intros junkr junkc.
  assert (Hf : (0 <= default_fmax 1)%R) by (unfold default_fmax; lra).
  destruct (C87_filters junkr junkc (Shift 0) impulse_gather 4 1 1 0 (default_fmax 1) ltac:(rewrite optncr_4; lia) ltac:(lra) (Rle_refl 0) Hf) as [F _].
  cbv zeta in F. rewrite optncr_4 in F. destruct (F 0 ltac:(lia)) as (y & Y1 & _ & _ & Y4). clear F.
  set (r := basop junkr junkc (Shift 0) impulse_gather 4 1 1 0 (default_fmax 1)) in *. clearbody r.
  specialize (Y4 2 ltac:(cbn; lia) ltac:(apply default_stops; lra || lia)).
  destruct (Req_EM_T (r 0) (impulse_gather 0)) as [E0|]; [|exists 0; split; [lia|assumption]].
  destruct (Req_EM_T (r 1) (impulse_gather 1)) as [E1|]; [|exists 1; split; [lia|assumption]].
  destruct (Req_EM_T (r 2) (impulse_gather 2)) as [E2|]; [|exists 2; split; [lia|assumption]].
  destruct (Req_EM_T (r 3) (impulse_gather 3)) as [E3|]; [|exists 3; split; [lia|assumption]].
  exfalso. assert (Z4 : spectrum 4 impulse_gather 2 = (0, 0)%R).
  { rewrite <- Y4. apply spectrum_ext. intros t Ht. rewrite <- (Y1 t Ht). cbn [Z.mul Z.add]. assert (C : t = 0 \/ t = 1 \/ t = 2 \/ t = 3) by lia. destruct C as [->|[->|[->| ->]]]; congruence. }
  assert (Q : spectrum 4 impulse_gather 2 = c1).
  { unfold spectrum, dft. rewrite (total_single _ _ 0); [|cbn; lia|intros j Hj N; unfold real_values, impulse_gather; destruct (Z.eqb_spec j 0); [contradiction|]; unfold times, c0; cbn [fst snd]; f_equal; ring].
    rewrite Z.mul_0_l, root_0. unfold real_values, impulse_gather, times, c1. cbn. f_equal; ring. }
  rewrite Q in Z4. apply (f_equal fst) in Z4. cbn [fst c1] in Z4. lra.
Qed.
Print Assumptions C87_highest_frequency_lost_refuted.
(** An operation followed by its counterpart, on traces that need no padding: the components that pass are restored, the others are gone. *)
Definition counterpart (op : operation) : operation :=
  match op with Shift a => Shift (- a) | Rotate a => Rotate (- a) | Jom => Jom_i | Jom_i => Jom | Sjom => Sjom_i | Sjom_i => Sjom | Som => Som_i | Som_i => Som | Sk c => Sk_i c | Sk_i c => Sk c | K_i c => K_i c end.
Definition has_counterpart (op : operation) : Prop := match op with Sk c | Sk_i c => (0 < c)%R | K_i _ => False | _ => True end.
Lemma cancels op om : has_counterpart op -> (0 < om)%R \/ (om = 0%R /\ lowest op = 0) -> cmul (transfer (counterpart op) om) (transfer op om) = c1.
Proof.
  intros Hc Ho. assert (T : forall x, (sin x * sin x + cos x * cos x = 1)%R) by (intros x; exact (sin2_cos2 x)).
  destruct op; cbn [has_counterpart counterpart transfer lowest] in *; unfold cmul, c1; cbn [fst snd]; try contradiction;
    try (destruct Ho as [Ho|[_ Ho]]; [|lia]); try (assert (Sq := sqrt_lt_R0 _ Ho)).
  - replace (om * - tau)%R with (- (om * tau))%R by ring. apply C_pair; rewrite cos_neg, sin_neg; specialize (T (om * tau)%R); [rewrite <- T|]; ring.
  - replace (- parts * PI)%R with (- (parts * PI))%R by ring. apply C_pair; rewrite cos_neg, sin_neg; specialize (T (parts * PI)%R); [rewrite <- T|]; ring.
  - apply C_pair; field; lra.
  - apply C_pair; field; lra.
  - specialize (T (PI / 4)%R). apply C_pair; [rewrite <- T|]; field; lra.
  - specialize (T (PI / 4)%R). apply C_pair; [rewrite <- T|]; field; lra.
  - apply C_pair; field; lra.
  - apply C_pair; field; lra.
  - assert (Sq' := sqrt_lt_R0 (om / c) ltac:(apply Rdiv_lt_0_compat; assumption)). apply C_pair; field; lra.
  - assert (Sq' := sqrt_lt_R0 (om / c) ltac:(apply Rdiv_lt_0_compat; assumption)). apply C_pair; field; lra.
Qed.
Theorem C87_counterparts j1 j2 j3 j4 op data nsam nrec dt fmin fmax i : 1 <= nsam -> optncr nsam = nsam -> (0 < dt)%R -> (0 <= fmin)%R -> (0 <= fmax)%R -> has_counterpart op -> 0 <= i < nrec ->
  let r := basop j3 j4 (counterpart op) (basop j1 j2 op data nsam nrec dt fmin fmax) nsam nrec dt fmin fmax in
  forall k, 0 <= k -> 2 * k < nsam ->
  (passes op nsam dt fmin fmax k -> spectrum nsam (trace_of r nsam i) k = spectrum nsam (trace_of data nsam i) k) /\
  (~ passes op nsam dt fmin fmax k -> spectrum nsam (trace_of r nsam i) k = (0, 0)%R).
Proof.
  intros Hs Hn Hd Hf Hg Hc Hi r k K0 K2. assert (Hs' : 1 <= nsam <= optncr nsam) by lia. unfold r. clear r.
  set (d1 := basop j1 j2 op data nsam nrec dt fmin fmax).
  destruct (C87_filters j1 j2 op data nsam nrec dt fmin fmax Hs' Hd Hf Hg) as [F1 _]. destruct (C87_filters j3 j4 (counterpart op) d1 nsam nrec dt fmin fmax Hs' Hd Hf Hg) as [F2 _].
  cbv zeta in F1, F2. fold d1 in F1. rewrite Hn in F1, F2. destruct (F1 i Hi) as (y & Y1 & Y2 & _ & _). destruct (F2 i Hi) as (z & Z1 & Z2 & _ & Z4). clear F1 F2.
  assert (P : forall q, passes (counterpart op) nsam dt fmin fmax q <-> passes op nsam dt fmin fmax q) by (intros q; destruct op; reflexivity).
  assert (T : forall d q, spectrum nsam (padded d nsam i) q = spectrum nsam (trace_of d nsam i) q). { intros d q. apply spectrum_ext. intros t Ht. unfold padded, trace_of. destruct (Z.ltb_spec t nsam); [reflexivity|lia]. }
  assert (Sz : spectrum nsam (trace_of (basop j3 j4 (counterpart op) d1 nsam nrec dt fmin fmax) nsam i) k = spectrum nsam z k) by (apply spectrum_ext; intros t Ht; apply Z1; exact Ht).
  assert (Sy : spectrum nsam (padded d1 nsam i) k = spectrum nsam y k). { rewrite T. apply spectrum_ext. intros t Ht. apply Y1. exact Ht. }
  rewrite Sz. split; intros Q.
  - rewrite Z2, Sy, Y2, T by (try assumption; apply P; assumption). replace (spectrum nsam (trace_of data nsam i) k) with (cmul c1 (spectrum nsam (trace_of data nsam i) k)) at 2 by (unfold cmul, c1; apply C_eq; cbn [fst snd]; ring).
    rewrite <- (cancels op (2 * PI * frequency nsam dt k) Hc).
    + unfold cmul. apply C_pair; cbn [fst snd]; ring.
    + destruct (Z.eq_dec k 0) as [->|N].
      * right. split; [unfold frequency, Rdiv; ring|]. destruct Q as [_ Q]. destruct op; cbn [lowest]; reflexivity || lia.
      * left. pose proof PI_RGT_0. assert (0 < IZR k)%R by (apply (IZR_lt 0); lia). assert (0 < IZR nsam)%R by (apply (IZR_lt 0); lia). apply Rmult_lt_0_compat; [lra|]. unfold frequency. apply Rdiv_lt_0_compat; [assumption|]. now apply Rmult_lt_0_compat.
  - apply Z4; [split; [lia|apply Z.div_le_lower_bound; lia]|]. now rewrite P.
Qed.
Print Assumptions C87_counterparts.
(** shift over half a sample of 8 samples, differentiation and integration: the frequencies 1 to 3 pass, 0 only in the shift, 4 never *)
Example C87_nonvacuous : optncr 8 = 8 /\ Z.even (optncr 8) = true /\ has_counterpart (Shift (/ 2)) /\ has_counterpart Jom /\ passes (Shift (/ 2)) 8 1 0 (default_fmax 1) 0 /\
  passes Jom 8 1 0 (default_fmax 1) 3 /\ ~ passes Jom 8 1 0 (default_fmax 1) 0 /\ ~ passes (Shift (/ 2)) 8 1 0 (default_fmax 1) 4 /\
  spectrum 8 (padded (fun x => if x <? 2 then 1%R else 0%R) 8 0) 4 = (0, 0)%R.
Proof.
  rewrite optncr_8. split; [reflexivity|]. split; [reflexivity|]. split; [exact I|]. split; [exact I|].
  split; [apply default_passes; try lra; cbn [lowest]; lia|]. split; [apply default_passes; try lra; cbn [lowest]; lia|].
  split; [intros [_ H]; lia|]. split; [apply default_stops; lra || lia|].
  - unfold spectrum, dft. change (Z.to_nat 8) with 8%nat. cbn [total Z.of_nat Pos.of_succ_nat Pos.succ]. unfold real_values, padded. cbn [Z.ltb Z.compare Pos.compare Pos.compare_cont Z.mul Z.add].
    change (Z.pos (1 * 4)) with 4. rewrite root_0, (root_half (-1) 8 4) by lia. unfold plus, times, c1, copp. cbn [fst snd]. f_equal; ring.
Qed.
