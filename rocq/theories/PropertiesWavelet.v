(** C85: source signatures of fdelmodc read from a file. *)
From Coq Require Import ZArith Reals List Bool Lia Lra Psatz.
From Verif Require Import ListAux FdKernels FdOutputProofs Marchenko MarchenkoProofs KissFft FftSize FftSpec FftAux FftInverse PropertiesFftSize PropertiesDft FconvSpec FconvProofs PropertiesFconv PropertiesSource Wavelet WaveletSpec WaveletProofs.
Import ListNotations.
Local Open Scope Z_scope.
Local Opaque optncr.

(** the number of samples, its relation to the length of the transform *)
Lemma nt_cases ns ds dt : 1 <= ns <= optncr ns -> (0 < ds)%R -> (0 < dt)%R -> let nt := wav_nt ns ds dt in let N := optnscale ns nt (optncr ns) in
  (nt = ns /\ N = optncr ns) \/ (1 <= Int_part (ds / dt) /\ nt = Int_part (ds / dt) * optncr ns /\ N = nt).
Proof.
  intros Hns Hds Hdt nt N. unfold N, optnscale. destruct (Z.eqb_spec nt ns) as [E|E]; [left; auto|right]. unfold nt, wav_nt in *.
  destruct (Req_EM_T ds dt); [congruence|]. destruct (Rlt_dec dt ds) as [L|L]; [|congruence]. repeat split; auto.
  assert (1 < ds / dt)%R. { apply Rmult_lt_reg_r with dt; [lra|]. unfold Rdiv. rewrite Rmult_assoc, Rinv_l by lra. lra. }
  pose proof (base_Int_part (ds / dt)) as [B1 B2]. assert (0 < Int_part (ds / dt)); [|lia]. apply lt_IZR. lra.
Qed.
Lemma nt_bounds ns ds dt : 1 <= ns <= optncr ns -> (0 < ds)%R -> (0 < dt)%R ->
  let nt := wav_nt ns ds dt in let N := optnscale ns nt (optncr ns) in optncr ns <= N /\ 1 <= nt <= N.
Proof. intros Hns Hds Hdt nt N. destruct (nt_cases ns ds dt Hns Hds Hdt) as [[A B]|[A [B C]]]; fold nt in A, B || fold nt in B, C; unfold N, nt in *; [lia|]. rewrite C, B. nia. Qed.

(** Same time step, no integration and no delay: the samples of the file, less the last one (time reversed: less the first one).
    In particular the value computed for the zero frequency has no effect. *)
Theorem C85_unchanged ns ds w (rev : bool) j : 1 <= ns <= optncr ns -> (0 < ds)%R -> 0 <= j < ns ->
  one_wavelet ns (wav_nt ns ds ds) (optncr ns) ds true rev None w j = (if rev then w (ns - 1 - j)%Z - w 0%Z else w j - w (ns - 1)%Z)%R.
Proof.
  intros Hns Hds Hj. destruct (nt_bounds ns ds ds Hns Hds Hds) as [HN Hnt].
  assert (E : wav_nt ns ds ds = ns) by (unfold wav_nt; destruct (Req_EM_T ds ds); congruence). rewrite E in *.
  assert (EN : optnscale ns ns (optncr ns) = 1 * optncr ns) by (unfold optnscale; rewrite Z.eqb_refl, Z.mul_1_l; reflexivity).
  rewrite (one_wavelet_at ns ns (optncr ns) ds Hnt).
  destruct (plain_constant ns ns (optncr ns) ds Hns 1 w ltac:(lia) EN ltac:(lia)) as [a A].
  destruct (Z.leb_spec 0 j), (Z.ltb_spec j ns); try lia; cbn [andb].
  assert (S : forall t, 0 <= t < ns -> signal ns ns (optncr ns) ds true None w t = (w t + a)%R).
  { intros t Ht. replace t with (1 * t) at 1 by ring. rewrite A by lia. unfold silent. destruct (Z.ltb_spec t ns); [reflexivity|lia]. }
  destruct rev; rewrite !S by lia; [replace (ns - j - 1) with (ns - 1 - j) by ring|]; ring.
Qed.
Print Assumptions C85_unchanged.

(** Every time step: the values are those of a signal with the spectrum of the wavelet, integrated and delayed, at the
    frequencies of the file, and with nothing above them; less the last one (time reversed: less the first one). *)
Theorem C85_spectrum ns ds dt w (rate rev : bool) tau : 1 <= ns <= optncr ns -> (0 < ds)%R -> (0 < dt)%R ->
  let nt := wav_nt ns ds dt in let N := if nt =? ns then optncr ns else nt in
  exists y : Z -> R,
    (forall j, 0 <= j < nt -> one_wavelet ns nt (optncr ns) ds rate rev tau w j = (if rev then y (nt - 1 - j)%Z - y 0%Z else y j - y (nt - 1)%Z)%R) /\
    (forall k, 1 <= k -> 2 * k < N -> spectrum N y k =
       if k <=? optncr ns / 2 then times (IZR N / IZR (optncr ns), 0)%R (conditioned (optncr ns) ds rate tau k (spectrum (optncr ns) (silent ns w) k)) else (0, 0)%R).
Proof.
  intros Hns Hds Hdt nt N. destruct (nt_bounds ns ds dt Hns Hds Hdt) as [HN Hnt]. fold nt in HN, Hnt. change (optnscale ns nt (optncr ns)) with N in HN, Hnt.
  exists (signal ns nt (optncr ns) ds rate tau w). split.
  - intros j Hj. rewrite (one_wavelet_at ns nt (optncr ns) ds Hnt). destruct (Z.leb_spec 0 j), (Z.ltb_spec j nt); try lia; cbn [andb].
    destruct rev; [replace (nt - j - 1) with (nt - 1 - j) by ring|]; reflexivity.
  - intros k Hk HkN. change N with (optnscale ns nt (optncr ns)). rewrite (signal_spectrum ns nt (optncr ns) ds Hns) by assumption.
    destruct (k <=? optncr ns / 2); [|reflexivity]. unfold scaled, FftSpec.times. cbn [fst snd]. change (optnscale ns nt (optncr ns)) with N. f_equal; ring.
Qed.
Print Assumptions C85_spectrum.

(** The time step of the file is a multiple of the time step of the modelling: every r-th value is a sample of the file, up to
    one constant, if there is nothing at the highest frequency. *)
Theorem C85_interpolated ns ds dt r w (rev : bool) i j : 1 <= ns <= optncr ns -> (0 < dt)%R -> 2 <= r -> ds = (IZR r * dt)%R ->
  (forall k, 2 * k = optncr ns -> spectrum (optncr ns) (silent ns w) k = (0, 0)%R) ->
  0 <= i < ns -> 0 <= j < ns ->
  let nt := wav_nt ns ds dt in let v i := one_wavelet ns nt (optncr ns) ds true rev None w (if rev then nt - 1 - r * i else r * i) in
  nt = r * optncr ns /\ (v i - v j = w i - w j)%R.
Proof.
  intros Hns Hdt Hr Hds Hq Hi Hj nt v. assert (R1 : (2 <= IZR r)%R) by (apply IZR_le; lia).
  assert (Hds0 : (0 < ds)%R) by (rewrite Hds; nra).
  assert (RR : Int_part (ds / dt) = r). { apply Int_part_is. replace (ds / dt)%R with (IZR r) by (rewrite Hds; field; lra). lra. }
  assert (Ent : nt = r * optncr ns). { unfold nt, wav_nt. rewrite RR. destruct (Req_EM_T ds dt); [exfalso; nra|]. destruct (Rlt_dec dt ds); [reflexivity|exfalso; nra]. }
  destruct (nt_bounds ns ds dt Hns Hds0 Hdt) as [HN Hnt]. fold nt in HN, Hnt.
  assert (EN : optnscale ns nt (optncr ns) = r * optncr ns). { unfold optnscale. destruct (Z.eqb_spec nt ns); [nia|exact Ent]. }
  split; [exact Ent|]. unfold v. clearbody nt. clear v.
  destruct (plain_constant ns nt (optncr ns) ds Hns r w ltac:(lia) EN) as [a A]. { intros _ E. apply Hq. exact E. }
  assert (Oi : r * i < nt /\ 0 <= r * i) by nia. assert (Oj : r * j < nt /\ 0 <= r * j) by nia.
  assert (S : forall t, 0 <= t < ns -> signal ns nt (optncr ns) ds true None w (r * t) = (w t + a)%R).
  { intros t Ht. rewrite A by lia. unfold silent. destruct (Z.ltb_spec t ns); [reflexivity|lia]. }
  rewrite !(one_wavelet_at ns nt (optncr ns) ds Hnt). destruct rev.
  - destruct (Z.leb_spec 0 (nt - 1 - r * i)), (Z.ltb_spec (nt - 1 - r * i) nt), (Z.leb_spec 0 (nt - 1 - r * j)), (Z.ltb_spec (nt - 1 - r * j) nt); try lia; cbn [andb].
    replace (nt - (nt - 1 - r * i) - 1) with (r * i) by ring. replace (nt - (nt - 1 - r * j) - 1) with (r * j) by ring. rewrite !S by lia. ring.
  - destruct (Z.leb_spec 0 (r * i)), (Z.ltb_spec (r * i) nt), (Z.leb_spec 0 (r * j)), (Z.ltb_spec (r * j) nt); try lia; cbn [andb].
    rewrite !S by lia. ring.
Qed.
Print Assumptions C85_interpolated.

(** Refuted: the signature keeps its time axis.  When the time step of the file lies between one and two steps of the modelling,
    or below one, the samples of the file are used one after the other, one per step of the modelling. *)
Theorem C85_time_axis_refuted ns ds dt w i j : 1 <= ns <= optncr ns -> (0 < dt < ds /\ ds < 2 * dt \/ 0 < ds < dt)%R -> 0 <= i < ns -> 0 <= j < ns ->
  let v := one_wavelet ns (wav_nt ns ds dt) (optncr ns) ds true false None w in
  (v i - v j = w i - w j)%R /\ (i <> j -> IZR (i - j) * dt <> IZR (i - j) * ds)%R.
Proof.
  intros Hns Hd Hi Hj v. assert (Hds : (0 < ds)%R) by lra. assert (Hdt : (0 < dt)%R) by lra. split.
  - destruct (nt_bounds ns ds dt Hns Hds Hdt) as [HN Hnt]. pose proof (nt_cases ns ds dt Hns Hds Hdt) as NC. unfold v. set (nt := wav_nt ns ds dt) in *. cbv zeta in NC.
    assert (EN : optnscale ns nt (optncr ns) = 1 * optncr ns /\ ns <= nt).
    { destruct NC as [[A B]|[A [B C]]]; [lia|]. destruct Hd as [Hd|Hd].
      - assert (R : Int_part (ds / dt) = 1). { apply Int_part_is. assert (ds / dt * dt = ds)%R by (field; lra). split; apply Rmult_le_reg_r with dt || apply Rmult_lt_reg_r with dt; lra. }
        rewrite R in B. rewrite C, B. lia.
      - exfalso. assert (R : Int_part (ds / dt) = 0). { apply Int_part_is. assert (ds / dt * dt = ds)%R by (field; lra). split; apply Rmult_le_reg_r with dt || apply Rmult_lt_reg_r with dt; lra. } lia. }
    destruct EN as [EN Hn]. clearbody nt.
    destruct (plain_constant ns nt (optncr ns) ds Hns 1 w ltac:(lia) EN ltac:(lia)) as [a A].
    assert (S : forall t, 0 <= t < ns -> signal ns nt (optncr ns) ds true None w t = (w t + a)%R).
    { intros t Ht. replace t with (1 * t) at 1 by ring. rewrite A by lia. unfold silent. destruct (Z.ltb_spec t ns); [reflexivity|lia]. }
    rewrite !(one_wavelet_at ns nt (optncr ns) ds Hnt).
    destruct (Z.leb_spec 0 i), (Z.ltb_spec i nt), (Z.leb_spec 0 j), (Z.ltb_spec j nt); try lia; cbn [andb]. rewrite (S i), (S j) by lia. ring.
  - intros N E. assert (IZR (i - j) <> 0)%R by (apply not_0_IZR; lia). apply Rmult_eq_reg_l in E; [lra|assumption].
Qed.
Print Assumptions C85_time_axis_refuted.

(** The zero frequency: the value at 0 of the parabola through the amplitudes at the first three frequencies, with the sign of the
    real part of the first; nothing if the first is zero. *)
Theorem C85_zero_frequency c a b g : let parabola x := (a * x ^ 2 + b * x + g)%R in let amplitude z := sqrt (fst z ^ 2 + snd z ^ 2) in
  (forall k, 1 <= k <= 3 -> amplitude (c k) = parabola (IZR k)) ->
  (forall k, k <> 0 -> zero_frequency c k = c k) /\
  zero_frequency c 0 = if Req_EM_T (amplitude (c 1)) 0 then (0, 0)%R else (if Rlt_dec (fst (c 1)) 0 then (- g)%R else g, 0%R).
Proof.
  intros parabola amplitude H. assert (M : forall z, modulus z = amplitude z) by (intros z; unfold modulus, amplitude; f_equal; ring).
  unfold zero_frequency. cbv zeta. rewrite !M. split.
  - intros k Hk. destruct (Req_EM_T (amplitude (c 1)) 0); apply upd_other; congruence.
  - destruct (Req_EM_T (amplitude (c 1)) 0); rewrite upd_same; [reflexivity|]. rewrite (H 1), (H 2), (H 3) by lia. unfold parabola.
    destruct (Rlt_dec (fst (c 1)) 0); f_equal; ring.
Qed.
Print Assumptions C85_zero_frequency.

(** Small values: each value of each signature is kept, or set to zero if it is below 1e-5 of the peak of the last signature. *)
Lemma peak_unique m m' f n : is_peak m f n -> is_peak m' f n -> m = m'.
Proof. intros [A [j [Hj Ej]]] [A' [j' [Hj' Ej']]]. pose proof (A j' Hj'). pose proof (A' j Hj). lra. Qed.
Theorem C85_small_values ns nt optn ds nx rate rev tau w i j m : (1 <= nx)%nat -> 1 <= nt -> 0 <= j < nt ->
  let v i := one_wavelet ns nt optn ds rate rev (tau i) (w i) in is_peak m (v (nx - 1)%nat) nt ->
  all_wavelets ns nt optn ds nx rate rev tau w i j = if Rlt_dec (Rabs (v i j)) (m / 100000) then 0%R else v i j.
Proof.
  intros Hnx Hnt Hj v P. unfold all_wavelets. rewrite threshold_at. fold (v i). fold (v (nx - 1)%nat).
  rewrite (peak_unique _ m _ _ (maxampl_peak nt (v (nx - 1)%nat) Hnt) P).
  destruct (Z.leb_spec 0 j), (Z.ltb_spec j nt); try lia; cbn [andb].
  replace (m * (1 / 100000))%R with (m / 100000)%R by (unfold Rdiv; ring). reflexivity.
Qed.
Print Assumptions C85_small_values.
Theorem C85_single_wavelet ns nt optn ds rate rev tau w j m : 1 <= nt -> 0 <= j < nt ->
  let v := one_wavelet ns nt optn ds rate rev (tau 0%nat) (w 0%nat) in is_peak m v nt ->
  (Rabs (all_wavelets ns nt optn ds 1 rate rev tau w 0%nat j - v j) <= m / 100000)%R.
Proof.
  intros Hnt Hj v P. rewrite (C85_small_values ns nt optn ds 1 rate rev tau w 0 j m) by (try lia; exact P). cbv zeta. fold v.
  assert (M : (0 <= m)%R). { destruct P as [_ [k [_ <-]]]. apply Rabs_pos. }
  destruct (Rlt_dec (Rabs (v j)) (m / 100000)) as [L|L].
  - rewrite Rminus_0_l, Rabs_Ropp. lra.
  - rewrite Rminus_eq_0, Rabs_R0. unfold Rdiv. nra.
Qed.
Print Assumptions C85_single_wavelet.

(** Refuted: a signature does not depend on the others.  A strong last signature erases a weak one. *)
Theorem C85_weak_wavelet_refuted : exists (w : nat -> Z -> R),
  let f nx := all_wavelets 4 (wav_nt 4 1 1) (optncr 4) 1 nx true false (fun _ => None) w in
  f 1%nat 0%nat 0%Z = 1%R /\ forall j, 0 <= j < 4 -> f 2%nat 0%nat j = 0%R.
Proof.
  exists (fun i j => if j =? 0 then (if (i =? 0)%nat then 1 else 1000000)%R else 0%R). cbv zeta.
  assert (O : 1 <= 4 <= optncr 4) by (rewrite optncr_4; lia).
  assert (NT : wav_nt 4 1 1 = 4) by (unfold wav_nt; destruct (Req_EM_T 1 1); [reflexivity|lra]).
  pose proof (fun i j => C85_unchanged 4 1 (fun j => if j =? 0 then (if (i =? 0)%nat then 1 else 1000000)%R else 0%R) false j O ltac:(lra)) as U. rewrite NT in *.
  cbn beta iota in U. change (4 - 1 =? 0) with false in U. cbn iota in U.
  assert (P : forall n, is_peak (if (n =? 0)%nat then 1 else 1000000)%R (one_wavelet 4 4 (optncr 4) 1 true false None (fun j => if j =? 0 then (if (n =? 0)%nat then 1 else 1000000)%R else 0%R)) 4).
  { intros n. split.
    - intros j Hj. rewrite U by exact Hj. destruct (j =? 0), (n =? 0)%nat; rewrite Rminus_0_r; rewrite ?Rabs_R0; try lra; rewrite Rabs_pos_eq; lra.
    - exists 0%Z. split; [lia|]. rewrite U by lia. change (0 =? 0) with true. cbn iota. rewrite Rminus_0_r. destruct (n =? 0)%nat; rewrite Rabs_pos_eq; lra. }
  split.
  - rewrite (C85_small_values 4 4 (optncr 4) 1 1 true false (fun _ => None) _ 0%nat 0 _ ltac:(lia) ltac:(lia) ltac:(lia) (P 0%nat)).
    cbv beta zeta. rewrite U by lia. change (0 =? 0) with true. change (0 =? 0)%nat with true. cbn iota. rewrite Rminus_0_r, Rabs_R1. destruct (Rlt_dec 1 (1 / 100000)); lra.
  - intros j Hj. rewrite (C85_small_values 4 4 (optncr 4) 1 2 true false (fun _ => None) _ 0%nat j _ ltac:(lia) ltac:(lia) ltac:(lia) (P 1%nat)).
    cbv beta zeta. rewrite U by lia. change (0 =? 0)%nat with true. change (1 =? 0)%nat with false. cbn iota. rewrite Rminus_0_r. destruct (Rlt_dec _ _) as [L|L]; [reflexivity|].
    exfalso. apply L. destruct (j =? 0); rewrite ?Rabs_R0, ?Rabs_R1; lra.
Qed.
Print Assumptions C85_weak_wavelet_refuted.

Example C85_nonvacuous : exists w : Z -> R,
  (forall k, 2 * k = optncr 4 -> spectrum (optncr 4) (silent 4 w) k = (0, 0)%R) /\
  (one_wavelet 4 (wav_nt 4 (2 * 1) 1) (optncr 4) (2 * 1) true false None w (2 * 1) - one_wavelet 4 (wav_nt 4 (2 * 1) 1) (optncr 4) (2 * 1) true false None w (2 * 0) = 1)%R.
Proof.
  set (w := fun j => if (j =? 1) || (j =? 2) then 1%R else 0%R). exists w.
  assert (Q : forall k, 2 * k = optncr 4 -> spectrum (optncr 4) (silent 4 w) k = (0, 0)%R).
  { rewrite optncr_4. intros k Hk. assert (k = 2) by lia. subst k. unfold spectrum, dft. change (Z.to_nat 4) with 4%nat. cbn [total Z.of_nat Pos.of_succ_nat Pos.succ].
    unfold real_values, silent, w. cbn [Z.ltb Z.compare Pos.compare Pos.compare_cont Z.eqb Pos.eqb orb Z.mul Pos.mul].
    assert (S1 : (-1 = 1 \/ -1 = -1)%Z) by (right; reflexivity).
    rewrite root_0. assert (RH : root 4 (-1) 2 = copp c1) by (apply root_half; auto; lia). rewrite RH. clear RH. try replace (root 4 (-1) 4) with c1 by (symmetry; apply root_full; auto; lia).
    unfold FftSpec.times, FftSpec.plus, copp, c1. cbn [fst snd]. f_equal; ring. }
  split; [exact Q|].
  assert (O : 1 <= 4 <= optncr 4) by (rewrite optncr_4; lia).
  destruct (C85_interpolated 4 (2 * 1) 1 2 w false 1 0 O ltac:(lra) ltac:(lia) eq_refl Q ltac:(lia) ltac:(lia)) as [_ E]. cbn iota in E. rewrite E. unfold w. cbn. ring.
Qed.
