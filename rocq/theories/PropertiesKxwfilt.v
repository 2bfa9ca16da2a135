(** Properties of the filter in the wavenumber domain (C98). *)
From Coq Require Import ZArith Reals List Bool Lia Lra.
From Verif Require Import ListAux FdKernels FdProofs FdOutputProofs Marchenko PropertiesDft Smooth PropertiesSmooth Kxwfilt.
Import ListNotations.
Local Open Scope Z_scope.

(** ** auxiliary *)
Lemma upd_range {V} (h : Z -> V -> V) a b (o : Z -> V) x : fold_left (fun o i => upd o i (h i (o i))) (range a b) o x = if (a <=? x) && (x <? b) then h x (o x) else o x.
Proof.
  assert (G : forall l, NoDup l -> forall o : Z -> V, fold_left (fun o i => upd o i (h i (o i))) l o x = if in_dec Z.eq_dec x l then h x (o x) else o x).
  { induction l as [|y l IH]; intros ND o1; [reflexivity|]. inversion ND; subst. cbn [fold_left]. rewrite IH by assumption. rewrite upd_eq. destruct (in_dec Z.eq_dec x l) as [I|I]; destruct (in_dec Z.eq_dec x (y :: l)) as [J|J]; destruct (Z.eqb_spec x y) as [E|E]; subst; try reflexivity; try contradiction; exfalso; cbn [In] in J; intuition congruence. }
  rewrite G by apply NoDup_range. destruct (in_dec Z.eq_dec x (range a b)) as [I|I]; rewrite in_range in I; destruct (Z.leb_spec a x); destruct (Z.ltb_spec x b); try reflexivity; lia.
Qed.
Lemma to_int_floor x : (0 <= x)%R -> (IZR (to_int x) <= x < IZR (to_int x) + 1)%R.
Proof. intros H. unfold to_int. destruct (Rlt_dec x 0); [lra|]. destruct (base_Int_part x). lra. Qed.
Lemma to_int_unique x z : (0 <= x)%R -> (IZR z <= x < IZR z + 1)%R -> to_int x = z.
Proof.
  intros H [A B]. pose proof (to_int_floor x H) as [C D]. rewrite <- plus_IZR in B, D. assert (to_int x < z + 1) by (apply lt_IZR; lra). assert (z < to_int x + 1) by (apply lt_IZR; lra). lia.
Qed.
Lemma to_int_nonneg x : (0 <= x)%R -> 0 <= to_int x.
Proof. intros H. pose proof (to_int_floor x H) as [C D]. rewrite <- plus_IZR in D. assert (0 < to_int x + 1) by (apply lt_IZR; lra). lia. Qed.
Lemma to_int_neg x : to_int (- x) = - to_int x.
Proof.
  unfold to_int. destruct (Rlt_dec (- x) 0), (Rlt_dec x 0); try lra; [rewrite Ropp_involutive; lia|lia|]. replace x with 0%R by lra. rewrite Ropp_0. assert (H := proj2 (proj2 (C95_position 0)) 0). unfold to_int in H. destruct (Rlt_dec 0 0); [lra|]. lia.
Qed.
Lemma to_int_le x z : (0 <= x)%R -> (x < IZR z + 1)%R -> to_int x <= z.
Proof. intros H L. pose proof (to_int_floor x H) as [C D]. rewrite <- plus_IZR in L. assert (to_int x < z + 1) by (apply lt_IZR; lra). lia. Qed.

(** ** specification: the factor of wavenumber number m (0 = zero wavenumber, nkx/2 = Nyquist), for a taper from lo to hi *)
Definition gain (hi lo m : Z) : R := if hi <=? m then 0%R else if m <? lo then 1%R else ((1 + cos (PI * IZR (m - lo) / IZR (hi - lo))) / 2)%R.

(** ** C98 *)
(** C98: both signs of the wavenumber get the same factor, whatever the new array contained; other samples are unchanged. *)
Theorem C98_factors data k dx nkx a1 perc f0 : let hl := taper (kpos k dx a1) nkx dx perc in let out := kxwfilt data k dx nkx a1 perc f0 in 0 <= snd hl -> 0 <= fst hl -> 0 < nkx ->
  (forall i, 0 <= i < nkx -> out i = (gain (fst hl) (snd hl) (Z.min i (nkx - i)) * fst (data i), gain (fst hl) (snd hl) (Z.min i (nkx - i)) * snd (data i))%R) /\
  (forall i, ~ 0 <= i < nkx -> out i = data i).
Proof.
  intros hl out H2 H1 Hn. unfold out, kxwfilt. destruct (taper (kpos k dx a1) nkx dx perc) as [ik1 ik2] eqn:T. unfold hl in *. cbn [fst snd] in *. pose proof (Z.div_mod nkx 2 ltac:(lia)) as DM. pose proof (Z.mod_pos_bound nkx 2 ltac:(lia)) as MB.
  assert (F : forall m, 0 <= m <= nkx / 2 -> filter_array nkx ik1 ik2 f0 m = gain ik1 ik2 m).
  { intros m Hm. unfold filter_array, gain. rewrite (upd_range (fun _ _ => 0%R)). destruct (Z.leb_spec ik1 m); [destruct (Z.ltb_spec m (nkx / 2 + 1)); [reflexivity|lia]|]. cbn [andb]. rewrite (upd_range (fun i _ => (1 / 2 * (cos (PI * IZR (i - ik2) * (1 / IZR (ik1 - ik2))) + 1))%R)). destruct (Z.ltb_spec m ik2) as [L|L].
    - destruct (Z.leb_spec ik2 m); [lia|]. cbn [andb]. rewrite (upd_range (fun _ _ => 1%R)). destruct (Z.leb_spec 0 m); [|lia]. destruct (Z.ltb_spec m ik2); [reflexivity|lia].
    - destruct (Z.leb_spec ik2 m); [|lia]. destruct (Z.ltb_spec m ik1); [|lia]. cbn [andb]. replace (PI * IZR (m - ik2) * (1 / IZR (ik1 - ik2)))%R with (PI * IZR (m - ik2) / IZR (ik1 - ik2))%R by (unfold Rdiv; ring). lra. }
  unfold apply_filter. split; intros i Hi.
  - rewrite (upd_range (fun i c => (fst c * filter_array nkx ik1 ik2 f0 (nkx - i), snd c * filter_array nkx ik1 ik2 f0 (nkx - i))%R)). rewrite (upd_range (fun i c => (fst c * filter_array nkx ik1 ik2 f0 i, snd c * filter_array nkx ik1 ik2 f0 i)%R)).
    destruct (Z.leb_spec (nkx / 2 + 1) i) as [L|L].
    + destruct (Z.ltb_spec i nkx); [|lia]. cbn [andb]. replace (i <? nkx / 2 + 1) with false by (symmetry; apply Z.ltb_ge; lia). rewrite andb_false_r. rewrite F by lia. replace (Z.min i (nkx - i)) with (nkx - i) by lia. f_equal; ring.
    + cbn [andb]. destruct (Z.leb_spec 0 i); [|lia]. destruct (Z.ltb_spec i (nkx / 2 + 1)); [|lia]. cbn [andb]. rewrite F by lia. replace (Z.min i (nkx - i)) with i by lia. f_equal; ring.
  - rewrite (upd_range (fun i c => (fst c * filter_array nkx ik1 ik2 f0 (nkx - i), snd c * filter_array nkx ik1 ik2 f0 (nkx - i))%R)). rewrite (upd_range (fun i c => (fst c * filter_array nkx ik1 ik2 f0 i, snd c * filter_array nkx ik1 ik2 f0 i)%R)).
    replace ((nkx / 2 + 1 <=? i) && (i <? nkx)) with false by (symmetry; apply andb_false_iff; destruct (Z.leb_spec (nkx / 2 + 1) i); [right; apply Z.ltb_ge; lia|now left]).
    replace ((0 <=? i) && (i <? nkx / 2 + 1)) with false by (symmetry; apply andb_false_iff; destruct (Z.leb_spec 0 i); [right; apply Z.ltb_ge; lia|now left]). reflexivity.
Qed.
Print Assumptions C98_factors.
(** C98: a factor is between 0 and 1 and does not grow with the wavenumber. *)
Theorem C98_gain hi lo : (forall m, (0 <= gain hi lo m <= 1)%R) /\ (forall m m', m <= m' -> (gain hi lo m' <= gain hi lo m)%R).
Proof.
  assert (B : forall m, (0 <= gain hi lo m <= 1)%R).
  { intros m. unfold gain. destruct (hi <=? m); [lra|]. destruct (m <? lo); [lra|]. pose proof (COS_bound (PI * IZR (m - lo) / IZR (hi - lo))). lra. }
  split; [exact B|]. intros m m' H. unfold gain at 1. destruct (Z.leb_spec hi m'); [apply B|]. destruct (Z.ltb_spec m' lo).
  - unfold gain. destruct (Z.leb_spec hi m); [lia|]. destruct (Z.ltb_spec m lo); [lra|lia].
  - unfold gain. destruct (Z.leb_spec hi m); [lia|]. destruct (Z.ltb_spec m lo) as [L|L].
    + pose proof (COS_bound (PI * IZR (m' - lo) / IZR (hi - lo))). lra.
    + assert (D : (0 < IZR (hi - lo))%R) by (apply IZR_lt; lia). pose proof PI_RGT_0 as P.
      assert (G : forall u, 0 <= u <= hi - lo -> (0 <= PI * IZR u / IZR (hi - lo) <= PI)%R).
      { intros u [U1 U2]. apply IZR_le in U1, U2. split; [apply Rle_mult_inv_pos; [apply Rmult_le_pos; lra|exact D]|]. apply Rmult_le_reg_r with (IZR (hi - lo)); [exact D|]. replace (PI * IZR u / IZR (hi - lo) * IZR (hi - lo))%R with (PI * IZR u)%R by (field; lra). apply Rmult_le_compat_l; lra. }
      assert (C : (cos (PI * IZR (m' - lo) / IZR (hi - lo)) <= cos (PI * IZR (m - lo) / IZR (hi - lo)))%R).
      { apply cos_decr_1; try (apply G; lia). unfold Rdiv. apply Rmult_le_compat_r; [left; now apply Rinv_0_lt_compat|]. apply Rmult_le_compat_l; [lra|]. apply IZR_le. lia. }
      lra.
Qed.
Print Assumptions C98_gain.

Lemma dkx_pos nkx dx : 0 < nkx -> (0 < dx)%R -> (0 < dkx nkx dx)%R.
Proof. intros H D. apply IZR_lt in H. unfold dkx. pose proof PI_RGT_0. apply Rdiv_lt_0_compat; [lra|]. now apply Rmult_lt_0_compat. Qed.
Lemma nyq_steps nkx dx : 0 < nkx -> (0 < dx)%R -> (kxnyq dx / dkx nkx dx = IZR nkx / 2)%R.
Proof. intros H D. apply IZR_lt in H. unfold kxnyq, dkx. pose proof PI_RGT_0. field. repeat split; lra. Qed.
Lemma half_floor nkx : 0 < nkx -> (IZR (nkx / 2) <= IZR nkx / 2 < IZR (nkx / 2) + 1)%R.
Proof. intros H. pose proof (Z.div_mod nkx 2 ltac:(lia)) as DM. pose proof (Z.mod_pos_bound nkx 2 ltac:(lia)) as MB. assert (A : (2 * IZR (nkx / 2) <= IZR nkx)%R) by (rewrite <- mult_IZR; apply IZR_le; lia). assert (B : (IZR nkx <= 2 * IZR (nkx / 2) + 1)%R) by (rewrite <- mult_IZR, <- plus_IZR; apply IZR_le; lia). lra. Qed.
Lemma taper_count kp nkx dx perc : 0 < nkx -> (0 < dx)%R -> (0 <= kp)%R -> let n := ntap0 kp nkx dx perc in 0 <= n /\ (IZR n * dkx nkx dx <= Rabs perc * (2 * kp) < (IZR n + 1) * dkx nkx dx)%R.
Proof.
  intros H D K n. pose proof (dkx_pos nkx dx H D) as DP. unfold n, ntap0. split; [lia|]. rewrite (Rabs_right (2 * kp)) by lra. set (u := (Rabs perc * (2 * kp) / dkx nkx dx)%R).
  assert (U : (0 <= u)%R) by (apply Rle_mult_inv_pos; [apply Rmult_le_pos; [apply Rabs_pos|lra]|exact DP]).
  assert (E : Z.abs (to_int (perc * (2 * kp) / dkx nkx dx)) = to_int u).
  { unfold u. destruct (Rle_dec 0 perc) as [P|P].
    - rewrite Rabs_right by lra. rewrite Z.abs_eq; [reflexivity|]. apply to_int_nonneg. apply Rle_mult_inv_pos; [apply Rmult_le_pos; lra|exact DP].
    - rewrite Rabs_left by lra. replace (- perc * (2 * kp) / dkx nkx dx)%R with (- (perc * (2 * kp) / dkx nkx dx))%R by (unfold Rdiv; ring). rewrite to_int_neg. apply Z.abs_neq. pose proof (to_int_nonneg (- (perc * (2 * kp) / dkx nkx dx))) as G. rewrite to_int_neg in G. apply Z.opp_nonneg_nonpos. apply G. replace (- (perc * (2 * kp) / dkx nkx dx))%R with (- perc * (2 * kp) / dkx nkx dx)%R by (unfold Rdiv; ring). apply Rle_mult_inv_pos; [apply Rmult_le_pos; lra|exact DP]. }
  rewrite E. pose proof (to_int_floor u U) as [A B]. assert (V : (u * dkx nkx dx = Rabs perc * (2 * kp))%R) by (unfold u; field; lra). rewrite <- V. split; [apply Rmult_le_compat_r; lra|apply Rmult_lt_compat_r; lra].
Qed.
(** C98: the array of the filter is filled from 0 to nkx/2 and never left, for every positive fraction of the taper, and for the negative ones while the largest wavenumber is not aliased. *)
Theorem C98_in_bounds kp nkx dx perc : 2 <= nkx -> (0 < dx)%R -> (0 <= kp)%R -> (perc <= 0 -> - (1 / 2) <= perc -> kp <= kxnyq dx)%R -> let hl := taper kp nkx dx perc in
  0 <= fst hl <= nkx / 2 /\ 0 <= snd hl <= nkx / 2 /\ (forall i, 0 <= i <= nkx / 2 -> In i (filter_writes nkx (fst hl) (snd hl))) /\ (forall i, In i (filter_writes nkx (fst hl) (snd hl)) -> 0 <= i < nkx).
Proof.
  intros Hn D K HK hl. pose proof (dkx_pos nkx dx ltac:(lia) D) as DP. pose proof (half_floor nkx ltac:(lia)) as HF. pose proof (nyq_steps nkx dx ltac:(lia) D) as NY. pose proof (Z.div_mod nkx 2 ltac:(lia)) as DM. pose proof (Z.mod_pos_bound nkx 2 ltac:(lia)) as MB.
  pose proof (taper_count kp nkx dx perc ltac:(lia) D K) as (N0 & N1 & N2). assert (NYP : (0 < kxnyq dx)%R) by (unfold kxnyq; pose proof PI_RGT_0; now apply Rdiv_lt_0_compat).
  assert (Q : forall a b, (a <= b)%R -> (a / dkx nkx dx <= b / dkx nkx dx)%R) by (intros; unfold Rdiv; apply Rmult_le_compat_r; [left; now apply Rinv_0_lt_compat|assumption]).
  assert (Q0 : forall a, (0 <= a)%R -> (0 <= a / dkx nkx dx)%R) by (intros; apply Rle_mult_inv_pos; assumption).
  assert (R : 0 <= fst hl <= nkx / 2 /\ 0 <= snd hl <= nkx / 2).
  { assert (W : 0 <= nkx / 2 - 1 <= nkx / 2 /\ 0 <= to_int ((if Rlt_dec (85 / 100 * kxnyq dx) kp then (85 / 100 * kxnyq dx)%R else kp) / dkx nkx dx) <= nkx / 2).
    { split; [lia|]. set (kk := if Rlt_dec (85 / 100 * kxnyq dx) kp then (85 / 100 * kxnyq dx)%R else kp). assert (KK : (0 <= kk <= kxnyq dx)%R) by (unfold kk; destruct (Rlt_dec (85 / 100 * kxnyq dx) kp); lra). split; [apply to_int_nonneg, Q0; lra|]. apply to_int_le; [apply Q0; lra|]. pose proof (Q kk (kxnyq dx) ltac:(lra)). lra. }
    unfold hl, taper. set (n := ntap0 kp nkx dx perc) in *. assert (NP := IZR_le _ _ N0). assert (KF : (Rabs (dkx nkx dx * IZR n) = dkx nkx dx * IZR n)%R) by (apply Rabs_right; apply Rle_ge, Rmult_le_pos; lra). rewrite KF.
    destruct (Rlt_dec 0 perc) as [P|P].
    - destruct (Rlt_dec perc (- (1 / 2))); [lra|]. destruct (Rlt_dec (kp + dkx nkx dx * IZR n) (kxnyq dx)) as [S|S]; (destruct (Rlt_dec 1 perc); [exact W|]); cbn [fst snd].
      + assert (E : ((kp + dkx nkx dx * IZR n) / dkx nkx dx = kp / dkx nkx dx + IZR n)%R) by (field; lra). rewrite E. pose proof (to_int_floor _ (Q0 kp K)) as F. assert (E2 : to_int (kp / dkx nkx dx + IZR n) = to_int (kp / dkx nkx dx) + n). { apply to_int_unique; [pose proof (Q0 kp K); lra|]. rewrite plus_IZR. lra. }
        assert (L : to_int (kp / dkx nkx dx + IZR n) <= nkx / 2). { apply to_int_le; [pose proof (Q0 kp K); lra|]. rewrite <- E. pose proof (Q _ _ (Rlt_le _ _ S)). lra. }
        pose proof (to_int_nonneg _ (Q0 kp K)). lia.
      + rewrite NY. rewrite (to_int_unique (IZR nkx / 2) (nkx / 2)); [|assert (0 <= IZR nkx)%R by (apply IZR_le; lia); lra|lra]. assert (NZ : (0 <= IZR nkx)%R) by (apply IZR_le; lia). assert (0 <= to_int (15 / 100 * IZR nkx / 2)) by (apply to_int_nonneg; lra). assert (to_int (15 / 100 * IZR nkx / 2) <= nkx / 2) by (apply to_int_le; lra). lia.
    - destruct (Rlt_dec perc (- (1 / 2))) as [P2|P2]; [exact W|]. destruct (Rlt_dec 1 perc); [lra|]. cbn [fst snd]. specialize (HK ltac:(lra) ltac:(lra)). rewrite Rmin_left by exact HK. pose proof (Q0 kp K) as KP. pose proof (to_int_floor _ KP) as F. assert (L : to_int (kp / dkx nkx dx) <= nkx / 2) by (apply to_int_le; [exact KP|]; pose proof (Q _ _ HK); lra).
      assert (M : n <= to_int (kp / dkx nkx dx)).
      { assert (X : (IZR n <= kp / dkx nkx dx)%R). { apply Rmult_le_reg_r with (dkx nkx dx); [exact DP|]. replace (kp / dkx nkx dx * dkx nkx dx)%R with kp by (field; lra). rewrite Rabs_left1 in N1 by lra. apply Rle_trans with (1 := N1). assert (Y : (0 <= (1 / 2 + perc) * (2 * kp))%R) by (apply Rmult_le_pos; lra). lra. }
        assert (n < to_int (kp / dkx nkx dx) + 1) by (apply lt_IZR; rewrite plus_IZR; lra). lia. }
      lia. }
  destruct R as [R1 R2]. split; [exact R1|]. split; [exact R2|]. unfold filter_writes. split; intros i.
  - intros Hi. rewrite !in_app_iff, !in_range. lia.
  - rewrite !in_app_iff, !in_range. lia.
Qed.
Print Assumptions C98_in_bounds.
(** C98: with a taper of a positive fraction, at most 1, which ends below Nyquist: wavenumbers up to that of the angle pass unchanged if the taper is at least one sample long; those beyond the taper are removed. *)
Theorem C98_pass nkx dx kp perc m : 2 <= nkx -> (0 < dx)%R -> (0 <= kp)%R -> (0 < perc <= 1)%R -> (kp + perc * (2 * kp) < kxnyq dx)%R -> 0 <= m ->
  let hl := taper kp nkx dx perc in
  ((IZR m * dkx nkx dx <= kp)%R -> (dkx nkx dx <= perc * (2 * kp))%R -> gain (fst hl) (snd hl) m = 1%R) /\
  ((kp + perc * (2 * kp) <= IZR m * dkx nkx dx)%R -> gain (fst hl) (snd hl) m = 0%R).
Proof.
  intros Hn D K P S Hm hl. pose proof (dkx_pos nkx dx ltac:(lia) D) as DP. pose proof (taper_count kp nkx dx perc ltac:(lia) D K) as (N0 & N1 & N2). rewrite Rabs_right in N1, N2 by lra.
  set (n := ntap0 kp nkx dx perc) in *. assert (NP := IZR_le _ _ N0). assert (KP : (0 <= kp / dkx nkx dx)%R) by (apply Rle_mult_inv_pos; assumption). pose proof (to_int_floor _ KP) as F.
  assert (E : hl = (to_int (kp / dkx nkx dx) + n, to_int (kp / dkx nkx dx))).
  { unfold hl, taper. fold n. assert (KF : (Rabs (dkx nkx dx * IZR n) = dkx nkx dx * IZR n)%R) by (apply Rabs_right; apply Rle_ge, Rmult_le_pos; lra). rewrite KF. destruct (Rlt_dec 0 perc); [|lra]. destruct (Rlt_dec (kp + dkx nkx dx * IZR n) (kxnyq dx)) as [S'|S']; [|lra]. destruct (Rlt_dec perc (- (1 / 2))); [lra|]. destruct (Rlt_dec 1 perc); [lra|].
    assert (E1 : ((kp + dkx nkx dx * IZR n) / dkx nkx dx = kp / dkx nkx dx + IZR n)%R) by (field; lra). rewrite E1. rewrite (to_int_unique (kp / dkx nkx dx + IZR n) (to_int (kp / dkx nkx dx) + n)); [f_equal; lia|lra|rewrite plus_IZR; lra]. }
  rewrite E. cbn [fst snd]. set (lo := to_int (kp / dkx nkx dx)) in *. assert (KV : (kp / dkx nkx dx * dkx nkx dx = kp)%R) by (field; lra). split.
  - intros M T. assert (ML : m <= lo). { assert (X : (IZR m <= kp / dkx nkx dx)%R) by (apply Rmult_le_reg_r with (dkx nkx dx); lra). assert (m < lo + 1) by (apply lt_IZR; rewrite plus_IZR; lra). lia. }
    assert (N : 1 <= n). { assert (X : (1 < IZR n + 1)%R) by (apply Rmult_lt_reg_r with (dkx nkx dx); lra). rewrite <- plus_IZR in X. apply lt_IZR in X. lia. }
    unfold gain. destruct (Z.leb_spec (lo + n) m); [lia|]. destruct (Z.ltb_spec m lo); [reflexivity|]. replace (m - lo) with 0 by lia. replace (PI * 0 / IZR (lo + n - lo))%R with 0%R by (unfold Rdiv; ring). rewrite cos_0. lra.
  - intros M. unfold gain. destruct (Z.leb_spec (lo + n) m) as [L|L]; [reflexivity|]. exfalso. assert (X : (IZR m + 1 <= IZR lo + IZR n)%R) by (rewrite <- !plus_IZR; apply IZR_le; lia). assert (Y : (IZR lo * dkx nkx dx <= kp)%R) by (rewrite <- KV; apply Rmult_le_compat_r; lra). assert (Z' : ((IZR m + 1) * dkx nkx dx <= (IZR lo + IZR n) * dkx nkx dx)%R) by (apply Rmult_le_compat_r; lra). lra.
Qed.
Print Assumptions C98_pass.
(** C98: the Nyquist wavenumber is always removed. *)
Theorem C98_nyquist kp nkx dx perc : 2 <= nkx -> (0 < dx)%R -> (0 <= kp)%R -> (perc <= 0 -> - (1 / 2) <= perc -> kp <= kxnyq dx)%R -> gain (fst (taper kp nkx dx perc)) (snd (taper kp nkx dx perc)) (nkx / 2) = 0%R.
Proof. intros Hn D K HK. destruct (C98_in_bounds kp nkx dx perc Hn D K HK) as (A & _). unfold gain. destruct (Z.leb_spec (fst (taper kp nkx dx perc)) (nkx / 2)); [reflexivity|lia]. Qed.
Print Assumptions C98_nyquist.
(** C98 refuted for a negative fraction (taper inside) and an aliased wavenumber: the taper begins before the array. *)
Theorem C98_aliased_refuted : exists kp nkx dx perc, 2 <= nkx /\ (0 < dx)%R /\ (0 <= kp)%R /\ (- (1 / 2) <= perc <= 0)%R /\ In (-1) (filter_writes nkx (fst (taper kp nkx dx perc)) (snd (taper kp nkx dx perc))).
Proof.
  pose proof PI_RGT_0 as P. exists (3 * PI)%R, 8, 1%R, (- (1 / 2))%R. split; [lia|]. split; [lra|]. split; [lra|]. split; [lra|].
  assert (DK : dkx 8 1 = (PI / 4)%R) by (unfold dkx; field). assert (NQ : kxnyq 1 = PI) by (unfold kxnyq; field).
  assert (N : ntap0 (3 * PI) 8 1 (- (1 / 2)) = 12). { unfold ntap0. rewrite DK, (Rabs_right (2 * (3 * PI))) by lra. replace (- (1 / 2) * (2 * (3 * PI)) / (PI / 4))%R with (- 12)%R by (field; lra). rewrite (proj2 (proj2 (C95_position 0)) (-12)). reflexivity. }
  unfold taper. rewrite N, DK, NQ. destruct (Rlt_dec 0 (- (1 / 2))); [lra|]. destruct (Rlt_dec (- (1 / 2)) (- (1 / 2))); [lra|]. destruct (Rlt_dec 1 (- (1 / 2))); [lra|]. rewrite Rmin_right by lra. replace (PI / (PI / 4))%R with 4%R by (field; lra). rewrite (proj2 (proj2 (C95_position 0)) 4). cbn [fst snd]. unfold filter_writes. rewrite !in_app_iff, !in_range. lia.
Qed.
Print Assumptions C98_aliased_refuted.
(** C98: the wavenumber of the angle (the help of basop says cos, the code takes the sine); beyond 90 degrees it is Nyquist. *)
Theorem C98_angle k dx a1 : (0 < dx)%R -> (0 <= k)%R -> (0 <= a1)%R -> (0 <= kpos k dx a1)%R /\ ((a1 <= 90)%R -> kpos k dx a1 = (k * sin (a1 / 180 * PI))%R /\ (kpos k dx a1 <= k)%R) /\ ((90 < a1)%R -> kpos k dx a1 = (PI / dx)%R).
Proof.
  intros D K A. pose proof PI_RGT_0 as P. unfold kpos, kxnyq. destruct (Rlt_dec 90 a1) as [L|L].
  - split; [left; now apply Rdiv_lt_0_compat|]. split; [lra|reflexivity].
  - replace (PI * a1 / 180)%R with (a1 / 180 * PI)%R by field. assert (S : (0 <= sin (a1 / 180 * PI))%R). { apply sin_ge_0; [apply Rmult_le_pos; lra|]. assert (0 <= (1 - a1 / 180) * PI)%R by (apply Rmult_le_pos; lra). lra. }
    pose proof (SIN_bound (a1 / 180 * PI)) as [_ B]. split; [now apply Rmult_le_pos|]. split; [|lra]. intros _. split; [reflexivity|]. rewrite <- (Rmult_1_r k) at 2. now apply Rmult_le_compat_l.
Qed.
Print Assumptions C98_angle.
(** C98: the filter of basop (fraction 0.15), for every frequency, angle, distance and contents of the new array: some taper lo..hi inside 0..Nyquist gives all factors. *)
Theorem C98_basop data k dx nkx a1 f0 : 2 <= nkx -> (0 < dx)%R -> (0 <= k)%R -> (0 <= a1)%R -> let hl := taper (kpos k dx a1) nkx dx (15 / 100) in
  0 <= fst hl <= nkx / 2 /\ 0 <= snd hl <= nkx / 2 /\
  (forall i, 0 <= i < nkx -> kxwfilt data k dx nkx a1 (15 / 100) f0 i = (gain (fst hl) (snd hl) (Z.min i (nkx - i)) * fst (data i), gain (fst hl) (snd hl) (Z.min i (nkx - i)) * snd (data i))%R).
Proof.
  intros Hn D K A hl. destruct (C98_angle k dx a1 D K A) as [KP _]. destruct (C98_in_bounds (kpos k dx a1) nkx dx (15 / 100) Hn D KP ltac:(lra)) as (B1 & B2 & _). split; [exact B1|]. split; [exact B2|]. apply (C98_factors data k dx nkx a1 (15 / 100) f0); lia.
Qed.
Print Assumptions C98_basop.
Lemma deltom_pos ntfft dt : 0 < ntfft -> (0 < dt)%R -> (0 < deltom ntfft dt)%R.
Proof. intros H D. apply IZR_lt in H. unfold deltom. pose proof PI_RGT_0. apply Rmult_lt_0_compat; [lra|]. apply Rdiv_lt_0_compat; [lra|]. now apply Rmult_lt_0_compat. Qed.
(** C98: the frequencies that are filtered: those from fmin (rounded down) to fmax, except zero frequency, up to Nyquist; df is 1/(ntfft dt). *)
Theorem C98_frequencies ntfft dt fmin fmax iom : 2 <= ntfft -> (0 < dt)%R -> (0 <= fmin)%R -> (0 <= fmax)%R -> let df := (1 / (IZR ntfft * dt))%R in
  iomin ntfft dt fmin <= iom <= iomax ntfft dt fmax <-> 1 <= iom <= ntfft / 2 /\ (IZR iom * df <= fmax)%R /\ ((fmin < (IZR iom + 1) * df)%R \/ iom = ntfft / 2).
Proof.
  intros Hn D F1 F2 df. pose proof (deltom_pos ntfft dt ltac:(lia) D) as OP. pose proof PI_RGT_0 as P. assert (NZ : (0 < IZR ntfft)%R) by (apply IZR_lt; lia). assert (DF : (0 < df)%R) by (apply Rdiv_lt_0_compat; [lra|now apply Rmult_lt_0_compat]).
  assert (E : forall f, (2 * PI * f / deltom ntfft dt = f / df)%R) by (intros f; unfold deltom, df; field; lra).
  assert (DV : forall f, (f / df * df = f)%R) by (intros f; field; lra).
  assert (H2 : 1 <= ntfft / 2) by (pose proof (Z.div_mod ntfft 2 ltac:(lia)); pose proof (Z.mod_pos_bound ntfft 2 ltac:(lia)); lia).
  assert (H2R := IZR_le _ _ H2). unfold iomin, iomax. rewrite !E. replace (ntfft / 2 + 1 - 1) with (ntfft / 2) by lia.
  assert (Q2 : (0 <= fmax / df)%R) by (apply Rle_mult_inv_pos; assumption). assert (Q1 : (0 <= fmin / df)%R) by (apply Rle_mult_inv_pos; assumption).
  assert (M : (0 <= Rmin (fmin / df) (IZR (ntfft / 2)))%R) by (apply Rmin_glb; lra).
  pose proof (to_int_floor _ Q2) as [A1 A2]. pose proof (to_int_floor _ M) as [B1 B2]. set (hi := to_int (fmax / df)) in *. set (lo := to_int (Rmin (fmin / df) (IZR (ntfft / 2)))) in *.
  assert (HI : iom <= hi <-> (IZR iom * df <= fmax)%R).
  { split; intros H.
    - apply IZR_le in H. rewrite <- (DV fmax). apply Rmult_le_compat_r; lra.
    - assert (X : (IZR iom <= fmax / df)%R) by (apply Rmult_le_reg_r with df; [exact DF|rewrite DV; exact H]). assert (iom < hi + 1) by (apply lt_IZR; rewrite plus_IZR; lra). lia. }
  assert (LO : iom <= ntfft / 2 -> (lo <= iom <-> ((fmin < (IZR iom + 1) * df)%R \/ iom = ntfft / 2))).
  { intros HN. split.
    - intros H. destruct (Z.eq_dec iom (ntfft / 2)) as [Q|Q]; [now right|]. left. apply IZR_le in H. assert (N : (IZR iom + 1 <= IZR (ntfft / 2))%R) by (rewrite <- plus_IZR; apply IZR_le; lia).
      assert (X : (fmin / df < IZR iom + 1)%R). { revert B2. unfold Rmin. destruct (Rle_dec (fmin / df) (IZR (ntfft / 2))); intros; lra. }
      rewrite <- (DV fmin). now apply Rmult_lt_compat_r.
    - intros [H|H].
      + assert (X : (fmin / df < IZR iom + 1)%R) by (apply Rmult_lt_reg_r with df; [exact DF|rewrite DV; exact H]). pose proof (Rmin_l (fmin / df) (IZR (ntfft / 2))). assert (lo < iom + 1) by (apply lt_IZR; rewrite plus_IZR; lra). lia.
      + pose proof (Rmin_r (fmin / df) (IZR (ntfft / 2))). subst iom. apply le_IZR. lra. }
  split.
  - intros [H3 H4]. assert (HN : iom <= ntfft / 2) by lia. split; [lia|]. split; [apply HI; lia|apply LO; lia].
  - intros (H3 & H4 & H5). apply HI in H4. apply LO in H5; lia.
Qed.
Print Assumptions C98_frequencies.
(** C98: every frequency that is filtered gets the factors of its own wavenumber om/cp; all other samples of the spectrum, also those of the frequencies below fmin and above fmax, are unchanged. *)
Theorem C98_rows cdata ntfft nkx dt dx fmin fmax angle cp f0 : 2 <= ntfft -> 2 <= nkx -> (0 < dt)%R -> (0 < dx)%R -> (0 < cp)%R -> (0 <= angle)%R -> let out := filter_rows cdata ntfft nkx dt dx fmin fmax angle cp (15 / 100) f0 in
  (forall iom i, iomin ntfft dt fmin <= iom <= iomax ntfft dt fmax -> 0 <= i < nkx -> let hl := taper (kpos (IZR iom * (2 * PI / (IZR ntfft * dt)) / cp) dx angle) nkx dx (15 / 100) in let c := cdata (iom * nkx + i) in
    out (iom * nkx + i) = (gain (fst hl) (snd hl) (Z.min i (nkx - i)) * fst c, gain (fst hl) (snd hl) (Z.min i (nkx - i)) * snd c)%R) /\
  (forall iom i, ~ iomin ntfft dt fmin <= iom <= iomax ntfft dt fmax -> 0 <= i < nkx -> out (iom * nkx + i) = cdata (iom * nkx + i)).
Proof.
  intros Hn Hk D DX CP A out. pose proof (deltom_pos ntfft dt ltac:(lia) D) as OP.
  set (lo := iomin ntfft dt fmin) in *. assert (LO : 1 <= lo) by (unfold lo, iomin; lia).
  set (g := fun iom i (c : R * R) => let hl := taper (kpos (IZR iom * deltom ntfft dt / cp) dx angle) nkx dx (15 / 100) in (gain (fst hl) (snd hl) (Z.min i (nkx - i)) * fst c, gain (fst hl) (snd hl) (Z.min i (nkx - i)) * snd c)%R).
  set (step := fun (c : Z -> R * R) iom => fun x => kxwfilt (fun i => c (iom * nkx + i)) (IZR iom * deltom ntfft dt / cp) dx nkx angle (15 / 100) (f0 iom) (x - iom * nkx)).
  assert (S1 : forall c iom i, 1 <= iom -> 0 <= i < nkx -> step c iom (iom * nkx + i) = g iom i (c (iom * nkx + i))).
  { intros c iom i H1 Hi. unfold step. replace (iom * nkx + i - iom * nkx) with i by lia. assert (K : (0 <= IZR iom * deltom ntfft dt / cp)%R) by (apply Rle_mult_inv_pos; [apply Rmult_le_pos; [apply IZR_le; lia|lra]|exact CP]). destruct (C98_basop (fun i => c (iom * nkx + i)) (IZR iom * deltom ntfft dt / cp) dx nkx angle (f0 iom) Hk DX K A) as (_ & _ & B). now rewrite B. }
  assert (S2 : forall c iom j i, 1 <= iom -> j <> iom -> 0 <= i < nkx -> step c iom (j * nkx + i) = c (j * nkx + i)).
  { intros c iom j i H1 Hj Hi. unfold step. assert (K : (0 <= IZR iom * deltom ntfft dt / cp)%R) by (apply Rle_mult_inv_pos; [apply Rmult_le_pos; [apply IZR_le; lia|lra]|exact CP]). destruct (C98_angle (IZR iom * deltom ntfft dt / cp) dx angle DX K A) as [KP _]. destruct (C98_in_bounds _ nkx dx (15 / 100) Hk DX KP ltac:(lra)) as (B1 & B2 & _).
    destruct (C98_factors (fun i => c (iom * nkx + i)) (IZR iom * deltom ntfft dt / cp) dx nkx angle (15 / 100) (f0 iom) ltac:(lia) ltac:(lia) ltac:(lia)) as [_ F]. rewrite F; [f_equal; lia|]. intros [G1 G2]. destruct (Z.lt_total j iom) as [L|[L|L]]; [|lia|].
    - pose proof (Z.mul_le_mono_nonneg_r (j + 1) iom nkx ltac:(lia) ltac:(lia)). lia.
    - pose proof (Z.mul_le_mono_nonneg_r (iom + 1) j nkx ltac:(lia) ltac:(lia)). lia. }
  assert (G : forall l, NoDup l -> (forall y, In y l -> 1 <= y) -> forall c j i, 0 <= i < nkx -> fold_left step l c (j * nkx + i) = if in_dec Z.eq_dec j l then g j i (c (j * nkx + i)) else c (j * nkx + i)).
  { induction l as [|y l IH]; intros ND HP c j i Hi; [reflexivity|]. inversion ND; subst. cbn [fold_left]. rewrite IH; [|assumption|intros; apply HP; now right|exact Hi]. assert (Y : 1 <= y) by (apply HP; now left). destruct (Z.eq_dec j y) as [E|E].
    - subst j. destruct (in_dec Z.eq_dec y l); [contradiction|]. destruct (in_dec Z.eq_dec y (y :: l)) as [J|J]; [now apply S1|exfalso; apply J; now left].
    - rewrite S2 by assumption. destruct (in_dec Z.eq_dec j l) as [I|I]; destruct (in_dec Z.eq_dec j (y :: l)) as [J|J]; try reflexivity; exfalso; cbn [In] in J; intuition congruence. }
  assert (O : forall j i, 0 <= i < nkx -> out (j * nkx + i) = if in_dec Z.eq_dec j (range lo (iomax ntfft dt fmax + 1)) then g j i (cdata (j * nkx + i)) else cdata (j * nkx + i)).
  { intros j i Hi. apply (G (range lo (iomax ntfft dt fmax + 1))); [apply NoDup_range| |exact Hi]. intros y Hy. apply in_range in Hy. lia. }
  split; intros iom i H Hi; cbv zeta; rewrite O by exact Hi; destruct (in_dec Z.eq_dec iom (range lo (iomax ntfft dt fmax + 1))) as [I|I]; rewrite in_range in I; try lia.
  - unfold g. cbv zeta. replace (deltom ntfft dt) with (2 * PI / (IZR ntfft * dt))%R; [reflexivity|]. unfold deltom. field. assert (0 < IZR ntfft)%R by (apply IZR_lt; lia). lra.
  - reflexivity.
Qed.
Print Assumptions C98_rows.
(** the hypotheses of C98_pass are met by the fraction 0.15 of basop, with both a passed and a removed wavenumber *)
Example C98_nonvacuous : let kp := (PI / 2)%R in let perc := (15 / 100)%R in 2 <= 64 /\ (0 < 1)%R /\ (kp + perc * (2 * kp) < kxnyq 1)%R /\ (IZR 16 * dkx 64 1 <= kp)%R /\ (dkx 64 1 <= perc * (2 * kp))%R /\ (kp + perc * (2 * kp) <= IZR 21 * dkx 64 1)%R.
Proof. pose proof PI_RGT_0 as P. assert (DK : dkx 64 1 = (PI / 32)%R) by (unfold dkx; field). assert (NQ : kxnyq 1 = PI) by (unfold kxnyq; field). cbv zeta. rewrite DK, NQ. repeat split; try lia; lra. Qed.
(** 128 samples of 4 ms, 10 to 40 Hz: frequencies number 5 to 20 are filtered *)
Example C98_frequencies_nonvacuous : iomin 128 (4 / 1000) 10 <= 5 <= iomax 128 (4 / 1000) 40 /\ ~ iomin 128 (4 / 1000) 10 <= 21 <= iomax 128 (4 / 1000) 40.
Proof. rewrite !C98_frequencies by (try lia; lra). change (128 / 2) with 64. split; [split; [lia|]; split; [lra|left; lra]|]. intros (_ & H & _). lra. Qed.
