(** C35, C36, C41, C42, C43, C53-C55: what fdelmodc records and writes. *)
From Coq Require Import ZArith List Bool Lia QArith Ascii String.
From Verif Require Import ListAux FdMachine FdKernels FdProofs FdSpec FdOutput FdOutputProofs.
Import ListNotations.
Local Open Scope Z_scope.
Ltac Zify.zify_post_hook ::= Z.to_euclidean_division_equations.

(** ** C35 *)
(** every access to the receiver array is inside it exactly when the trace is longer than the
    number of the last sample; with a shorter trace (recording split over several files) the
    array is always overrun *)
Theorem C35_in_bounds_iff : forall V (add : V -> V -> V) accumulate r init wave,
  t0n r = 0 -> 0 < skipdt r -> 0 <= delay r < mod_nt r -> 0 < rec_nt r -> 0 < rec_n r ->
  outside (shot add accumulate r init wave) = false <-> (mod_nt r - 1 - delay r) / skipdt r + 1 < rec_nt r.
Proof.
  intros V add acc r init wave Ht Hs Hd Hnt Hn. change ((mod_nt r - 1 - delay r) / skipdt r + 1) with (last_sample r). split.
  - intros H. destruct (Z.lt_ge_cases (last_sample r) (rec_nt r)) as [|G]; [assumption|].
    rewrite (shot_overflows r Ht Hs Hd Hnt add acc init wave Hn G) in H. discriminate.
  - intros H. now apply (shot_fits r Ht Hs Hd Hnt add acc init wave Hn H).
Qed.
Print Assumptions C35_in_bounds_iff.
(** with the default trace length: exactly when the receiver sampling divides the run *)
Theorem C35_default_iff : forall V (add : V -> V -> V) accumulate r init wave,
  t0n r = 0 -> 0 < skipdt r -> 0 <= delay r < mod_nt r -> 0 < rec_n r -> rec_nt r = default_rec_nt (mod_nt r) (delay r) (skipdt r) ->
  outside (shot add accumulate r init wave) = false <-> (skipdt r | mod_nt r - delay r).
Proof.
  intros V add acc r init wave Ht Hs Hd Hn Hr. rewrite default_rec_nt_eq in Hr by lia.
  set (a := mod_nt r - delay r) in *. assert (Ha : 0 < a) by lia.
  assert (0 <= a / skipdt r) by (apply Z.div_pos; lia).
  rewrite C35_in_bounds_iff by (auto; lia). rewrite Hr. replace (mod_nt r - 1 - delay r) with (a - 1) by lia. set (s := skipdt r) in *.
  pose proof (Z.div_mod a s ltac:(lia)) as E. pose proof (Z.mod_pos_bound a s Hs) as M.
  pose proof (Z.div_mod (a - 1) s ltac:(lia)) as E'. pose proof (Z.mod_pos_bound (a - 1) s Hs) as M'. clearbody a s. clear -E E' M M' Hs. split.
  - intros L. exists (a / s). assert (a mod s = 0); [|nia]. nia.
  - intros [k ->]. rewrite Z.mod_mul in * by lia. rewrite Z.div_mul in * by lia. nia.
Qed.
Print Assumptions C35_default_iff.
(** 5 time steps, every second recorded: sample 3 of a trace of 3 *)
Theorem C35_default_refuted : exists r, t0n r = 0 /\ 0 < skipdt r /\ 0 <= delay r < mod_nt r /\ rec_n r = 1 /\
  rec_nt r = default_rec_nt (mod_nt r) (delay r) (skipdt r) /\ forall wave, outside (shot Z.add true r (fun _ => 0) wave) = true.
Proof. exists (mk_recording 1 3 2 0 5 0). cbn. conjs; try lia; try reflexivity. Qed.
Print Assumptions C35_default_refuted.
Example C35_nonvacuous : let r := mk_recording 2 3 2 1 5 0 in rec_nt r = default_rec_nt (mod_nt r) (delay r) (skipdt r) /\
  outside (shot Z.add true r (fun _ => 0) (fun it _ => it)) = false.
Proof. split; vm_compute; reflexivity. Qed.

(** ** C36 *)
(** [after k irec]: the field at the receiver after k time steps.  Sample 0 is zero, sample k+1
    is the field after delay+k*skipdt+1 time steps *)
Theorem C36_samples : forall V (zero : V) (add : V -> V -> V) accumulate r after,
  (forall x, add zero x = x) ->
  t0n r = 0 -> 0 < skipdt r -> 0 <= delay r < mod_nt r -> 0 < rec_nt r -> 0 < rec_n r -> (mod_nt r - 1 - delay r) / skipdt r + 1 < rec_nt r ->
  written (shot add accumulate r (fun _ => zero) (fun it irec => after (it + 1) irec)) =
  [mk_outfile 0 (map (fun irec => zero :: map (fun k => after (delay r + k * skipdt r + 1) irec) (range 0 ((mod_nt r - 1 - delay r) / skipdt r + 1)))
                     (range 0 (rec_n r)))].
Proof.
  intros V zero add acc r after Hz Ht Hs Hd Hnt Hn HL. change ((mod_nt r - 1 - delay r) / skipdt r + 1) with (last_sample r) in *.
  destruct (shot_fits r Ht Hs Hd Hnt add acc (fun _ => zero) (fun it irec => after (it + 1) irec) Hn HL) as (_ & -> & _).
  pose proof (last_sample_pos r Hs Hd) as L. do 2 f_equal. apply map_ext. intros irec. cbv zeta.
  rewrite (range_split 0 1) by lia. replace (range 0 1) with [0] by reflexivity. cbn [map app Z.eqb]. f_equal.
  unfold range. rewrite !map_map. replace (Z.to_nat (last_sample r + 1 - 1)) with (Z.to_nat (last_sample r - 0)) by lia. apply map_ext. intros k.
  destruct (Z.eqb_spec (1 + Z.of_nat k) 0); [lia|]. replace (1 + Z.of_nat k - 1) with (0 + Z.of_nat k) by lia. destruct acc; [apply Hz|reflexivity].
Qed.
Print Assumptions C36_samples.
(** the time of a sample is i*dtrcv when every time step is recorded from the start *)
Theorem C36_every_step : forall V (zero : V) (add : V -> V -> V) accumulate r after,
  (forall x, add zero x = x) -> after 0 = (fun _ => zero) ->
  t0n r = 0 -> skipdt r = 1 -> delay r = 0 -> 0 < mod_nt r < rec_nt r -> 0 < rec_n r ->
  written (shot add accumulate r (fun _ => zero) (fun it irec => after (it + 1) irec)) =
  [mk_outfile 0 (map (fun irec => map (fun i => after i irec) (range 0 (mod_nt r + 1))) (range 0 (rec_n r)))].
Proof.
  intros V zero add acc r after Hz H0 Ht Hs Hd Hm Hn.
  rewrite (C36_samples V zero add acc r after Hz Ht) by (rewrite ?Hs, ?Hd, ?Z.div_1_r; lia).
  do 2 f_equal. apply map_ext. intros irec. rewrite Hs, Hd, Z.div_1_r. rewrite (range_split 0 1 (mod_nt r + 1)) by lia.
  replace (range 0 1) with [0] by reflexivity. cbn [map app]. rewrite H0. f_equal. unfold range. rewrite !map_map.
  replace (Z.to_nat (mod_nt r + 1 - 1)) with (Z.to_nat (mod_nt r - 1 - 0 + 1 - 0)) by lia. apply map_ext. intros k. f_equal. lia.
Qed.
Print Assumptions C36_every_step.
(** ... and not otherwise: sample 1 of a recording of every second step is the field after one
    time step, not after two *)
Theorem C36_time_refuted : exists r, t0n r = 0 /\ delay r = 0 /\ (skipdt r | mod_nt r) /\ rec_nt r = default_rec_nt (mod_nt r) (delay r) (skipdt r) /\
  let s := shot Z.add true r (fun _ => 0) (fun it _ => it + 1) in
  outside s = false /\ written s = [mk_outfile 0 [[0; 1; 3]]] /\ skipdt r = 2.
Proof. exists (mk_recording 1 3 2 0 4 0). cbn. conjs; try reflexivity; try lia. exists 2. reflexivity. Qed.
Print Assumptions C36_time_refuted.
(** splitting over files (2 receivers, 4 steps, 2 samples per file): the samples of the first
    file are added to those of the second, and each file has one sample too many, which is
    stored in the next trace *)
Theorem C36_split_refuted : exists r, skipdt r = 1 /\ delay r = 0 /\ t0n r = 0 /\ rec_nt r = 2 /\ mod_nt r = 4 /\
  map (fun f => (file_number f, traces f)) (written (shot Z.add true r (fun _ => 0) (fun it irec => 10 ^ it * (irec + 1)))) =
  [(1, [[0; 1; 10]; [10; 2; 0]]); (2, [[0; 101; 1010]; [1010; 202; 0]])].
Proof. exists (mk_recording 2 2 1 0 4 0). conjs; vm_compute; reflexivity. Qed.
Print Assumptions C36_split_refuted.
(** start times before zero (dipping plane waves): the samples before time zero are kept at the
    end of the trace; a sample is the sum of the fields at all recorded steps that fall on it *)
Definition falls_on (r : recording) (it j : Z) : bool :=
  let q := Z.quot (it - delay r + t0n r) (skipdt r) + 1 in
  (delay r <=? it) && (Z.rem (it - delay r) (skipdt r) =? 0) && (j =? (if q <? 0 then rec_nt r + q else q)).
Theorem C36_negative_times : forall V (add : V -> V -> V) r init wave,
  0 < skipdt r -> 0 <= delay r < it1 r -> t0n r <= 0 -> 0 < rec_nt r -> 0 < rec_n r ->
  Z.quot (mod_nt r - 1 - delay r) (skipdt r) + 1 < rec_nt r -> - rec_nt r < Z.quot (t0n r) (skipdt r) + 1 ->
  let s := shot add true r init wave in
  outside s = false /\ exists ns, 0 < ns <= rec_nt r /\ written s = [mk_outfile 0 (map (fun irec => map (fun j =>
    fold_left add (map (fun it => wave it irec) (filter (fun it => falls_on r it j) (range 0 (it1 r)))) (init (irec * rec_nt r + j)))
    (range 0 ns)) (range 0 (rec_n r)))].
Proof.
  intros V add r init wave Hs Hd Ht Hnt Hn HA HB s.
  assert (Q : quiet r (it1 r)).
  { intros it Hit Hr. unfold is_recorded in Hr. apply andb_true_iff in Hr as [_ Hr]. apply Z.leb_le in Hr. unfold it1 in Hit. unfold count.
    assert (Z.quot (t0n r) (skipdt r) <= Z.quot (it - delay r + t0n r) (skipdt r)) by (apply Z.quot_le_mono; lia).
    assert (Z.quot (it - delay r + t0n r) (skipdt r) <= Z.quot (mod_nt r - 1 - delay r) (skipdt r)) by (apply Z.quot_le_mono; lia). lia. }
  pose proof (shot_quiet add true r Hnt init wave ltac:(lia) Hn Q) as G.
  assert (L : exists k, last_slot r (range 0 (it1 r)) = Some k /\ 0 <= k < rec_nt r).
  { unfold last_slot. rewrite (range_split 0 (delay r)), (range_split (delay r) (delay r + 1)), !fold_left_app by lia.
    replace (range (delay r) (delay r + 1)) with [delay r] by (rewrite range_snoc, range_nil by lia; reflexivity). cbn [fold_left].
    assert (D : is_recorded r (delay r) = true) by (unfold is_recorded; rewrite Z.sub_diag, Z.rem_0_l, Z.leb_refl by lia; reflexivity).
    rewrite D. assert (G' : forall l acc, (forall it, In it l -> 0 <= it < it1 r) -> (exists k, acc = Some k /\ 0 <= k < rec_nt r) ->
       exists k, fold_left (fun acc it => if is_recorded r it then Some (slot r it) else acc) l acc = Some k /\ 0 <= k < rec_nt r).
    { induction l as [|x l IH]; intros acc Hl Ha; [exact Ha|]. cbn [fold_left]. apply IH; [intros; apply Hl; now right|].
      destruct (is_recorded r x) eqn:E; [|exact Ha]. eexists. split; [reflexivity|]. apply slot_bounds, Q; [apply Hl; now left|exact E]. }
    apply G'; [intros it Hit; apply in_range in Hit; lia|]. eexists. split; [reflexivity|]. apply slot_bounds, Q; [lia|exact D]. }
  destruct L as (k & L & Lk). rewrite L in G. destruct G as (G1 & _ & G3 & _). split; [exact G1|]. exists (k + 1). split; [lia|].
  unfold s. rewrite G3. do 2 f_equal. apply map_ext. intros irec. apply map_ext. intros j. unfold heard.
  generalize (range 0 (it1 r)) as l, (init (irec * rec_nt r + j)) as acc. induction l as [|it l IH]; intros acc; [reflexivity|]. cbn [fold_left filter].
  rewrite IH. unfold falls_on, is_recorded. fold (count r it). fold (slot r it).
  rewrite (andb_comm (_ =? 0) (_ <=? it)), (Z.eqb_sym j). destruct (_ && _ && _); reflexivity.
Qed.
Print Assumptions C36_negative_times.
(** every second step recorded and one step before zero: two steps fall on sample 1 *)
Example C36_nonvacuous : let r := mk_recording 1 4 2 0 6 (-1) in
  Z.quot (mod_nt r - 1 - delay r) (skipdt r) + 1 < rec_nt r /\ - rec_nt r < Z.quot (t0n r) (skipdt r) + 1 /\
  written (shot Z.add true r (fun _ => 0) (fun it _ => 10 ^ it)) = [mk_outfile 0 [[0; 101; 10000; 1000000]]].
Proof. cbv zeta. conjs; try (vm_compute; congruence). Qed.

(** ** C53 *)
(** every shot gives the traces it would give alone, whatever was modelled before *)
Theorem C53_shots_independent : forall V (zero : V) (add : V -> V -> V) accumulate r waves,
  t0n r = 0 -> 0 < skipdt r -> 0 <= delay r < mod_nt r -> 0 < rec_nt r -> 0 < rec_n r -> (mod_nt r - 1 - delay r) / skipdt r + 1 < rec_nt r ->
  map written (shots zero add accumulate r (fun _ => zero) waves) = map (fun w => written (shot add accumulate r (fun _ => zero) w)) waves.
Proof.
  intros V zero add acc r waves Ht Hs Hd Hnt Hn HL. change (last_sample r < rec_nt r) in HL.
  enough (G : forall waves init, (forall irec, 0 <= irec < rec_n r -> init (irec * rec_nt r) = zero) -> (acc = true -> init = fun _ => zero) ->
    map written (shots zero add acc r init waves) = map (fun w => written (shot add acc r (fun _ => zero) w)) waves) by (apply G; auto).
  clear waves. induction waves as [|w ws IH]; intros init Hi Ha; [reflexivity|]. cbn [shots map]. cbv zeta. f_equal.
  - destruct (shot_fits r Ht Hs Hd Hnt add acc init w Hn HL) as (_ & -> & _).
    destruct (shot_fits r Ht Hs Hd Hnt add acc (fun _ => zero) w Hn HL) as (_ & -> & _). do 2 f_equal.
    apply map_ext_in. intros irec Hr. apply in_range in Hr. apply map_ext. intros j. cbv zeta.
    destruct (Z.eqb_spec j 0) as [->|]; [rewrite Z.add_0_r; apply Hi; lia|]. destruct acc; [|reflexivity]. rewrite Ha by reflexivity. reflexivity.
  - apply IH; [|destruct acc; [reflexivity|discriminate]]. destruct acc; [reflexivity|].
    intros irec Hr. destruct (shot_fits r Ht Hs Hd Hnt add false init w Hn HL) as (_ & _ & ->); auto.
Qed.
Print Assumptions C53_shots_independent.
Example C53_nonvacuous : map written (shots 0 Z.add false (mk_recording 1 3 2 0 4 0) (fun _ => 0) [fun it _ => it + 1; fun it _ => it + 5]) =
  [[mk_outfile 0 [[0; 1; 3]]]; [mk_outfile 0 [[0; 5; 7]]]].
Proof. vm_compute. reflexivity. Qed.

(** ** C42 *)
(** every shot is done by exactly one process, for any monotone rounding of the single
    precision operations with relative error at most 2^-23, up to 2^21 shots *)
Definition rounding (rnd : Q -> Q) : Prop :=
  (forall a b, (a <= b)%Q -> (rnd a <= rnd b)%Q) /\ (rnd 0 == 0)%Q /\
  (forall a, (0 <= a)%Q -> (a * (1 - (1 # 8388608)) <= rnd a)%Q).
Lemma Qceil_spec q n : Qceil q <= n <-> (q <= inject_Z n)%Q.
Proof.
  unfold Qceil, Qle. cbn. destruct q as [a d]. cbn. rewrite Z.mul_1_r. split; intros H.
  - pose proof (Z.mul_div_le (- a) (Z.pos d) ltac:(lia)). nia.
  - assert (- n <= (- a) / Z.pos d); [|lia]. apply Z.div_le_lower_bound; lia.
Qed.
Lemma Qceil_mono a b : (a <= b)%Q -> Qceil a <= Qceil b.
Proof. intros H. apply Qceil_spec. apply Qle_trans with b; [exact H|]. now apply Qceil_spec. Qed.
Theorem C42_shots_partition : forall rnd n npes, rounding rnd -> 0 <= n <= 2097152 -> 0 < npes ->
  forall ishot, 0 <= ishot < n -> exists! pe, 0 <= pe < npes /\ first_shot rnd n npes pe <= ishot < end_shot rnd n npes pe.
Proof.
  intros rnd n npes (Mo & R0 & Re) Hn Hp ishot Hi. set (q := npeshot rnd n npes).
  assert (Hq1 : (1 <= q)%Q).
  { unfold q, npeshot. destruct (Qle_bool _ 1) eqn:E; [apply Qle_refl|]. apply Qlt_le_weak, Qnot_le_lt. intros H. apply Qle_bool_iff in H. congruence. }
  assert (Hq2 : (inject_Z n / inject_Z npes * (1 - (1 # 8388608)) <= q)%Q).
  { assert (P : (0 <= inject_Z n / inject_Z npes)%Q).
    { apply Qle_shift_div_l; [change 0%Q with (inject_Z 0); now rewrite <- Zlt_Qlt|]. rewrite Qmult_0_l. change 0%Q with (inject_Z 0). rewrite <- Zle_Qle. lia. }
    unfold q, npeshot. destruct (Qle_bool _ 1) eqn:E; [apply Qle_bool_iff in E; apply Qle_trans with (2 := E)|]; now apply Re. }
  set (c := fun pe => Qceil (rnd (inject_Z pe * q)%Q)).
  assert (Cm : forall a b, a <= b -> c a <= c b).
  { intros a b H. apply Qceil_mono, Mo. apply Qmult_le_compat_r; [now rewrite <- Zle_Qle|]. apply Qle_trans with 1%Q; [discriminate|exact Hq1]. }
  assert (C0 : c 0 = 0).
  { assert (E : (rnd (inject_Z 0 * q) == 0)%Q).
    { assert (Z0 : (inject_Z 0 * q == 0)%Q) by apply Qmult_0_l.
      apply Qle_antisym; [apply Qle_trans with (rnd 0%Q)|apply Qle_trans with (rnd 0%Q)]; try (rewrite R0; apply Qle_refl); apply Mo; rewrite Z0; apply Qle_refl. }
    apply Z.le_antisymm; [apply Qceil_spec; rewrite E; apply Qle_refl|]. destruct (Z.le_gt_cases 0 (c 0)) as [|G]; [assumption|].
    assert (H : Qceil (rnd (inject_Z 0 * q)%Q) <= -1) by (unfold c in G; lia). apply Qceil_spec in H. rewrite E in H. now apply Qle_bool_iff in H. }
  assert (Cn : n <= c npes).
  { destruct (Z.le_gt_cases n (c npes)) as [|G]; [assumption|]. exfalso.
    assert (H : c npes <= n - 1) by lia. apply Qceil_spec in H.
    assert (P : (inject_Z n * (1 - (1 # 8388608)) <= inject_Z npes * q)%Q).
    { apply Qle_trans with (inject_Z npes * (inject_Z n / inject_Z npes * (1 - (1 # 8388608))))%Q.
      - apply Qle_lteq. right. field. intros E. change 0%Q with (inject_Z 0) in E. rewrite inject_Z_injective in E. lia.
      - rewrite (Qmult_comm (inject_Z npes)), (Qmult_comm (inject_Z npes)). apply Qmult_le_compat_r; [exact Hq2|]. change 0%Q with (inject_Z 0). rewrite <- Zle_Qle. lia. }
    assert (P0 : (0 <= inject_Z npes * q)%Q).
    { apply Qmult_le_0_compat; [change 0%Q with (inject_Z 0); rewrite <- Zle_Qle; lia|]. apply Qle_trans with 1%Q; [discriminate|exact Hq1]. }
    specialize (Re _ P0).
    assert (K : (inject_Z n * (1 - (1 # 8388608)) * (1 - (1 # 8388608)) <= inject_Z (n - 1))%Q).
    { apply Qle_trans with (2 := H). apply Qle_trans with (2 := Re). apply Qmult_le_compat_r; [exact P|discriminate]. }
    unfold Qle in K. cbn in K. lia. }
  assert (F : forall pe, first_shot rnd n npes pe = c pe) by reflexivity.
  assert (E : forall pe, end_shot rnd n npes pe = Z.min (c (pe + 1)) n) by reflexivity.
  change (exists! pe, 0 <= pe < npes /\ c pe <= ishot < Z.min (c (pe + 1)) n).
  assert (X : forall k, 0 <= k -> ishot < c k -> exists pe, 0 <= pe < k /\ c pe <= ishot < c (pe + 1)).
  { intros k Hk. pattern k. apply natlike_ind; [| |exact Hk]; clear k Hk.
    - intros H. lia.
    - intros k Hk IH H. destruct (Z.lt_ge_cases ishot (c k)) as [L|L].
      + destruct (IH L) as (pe & Hpe & Hc). exists pe. split; [lia|exact Hc].
      + exists k. split; [lia|]. rewrite Z.add_1_r. lia. }
  destruct (X npes ltac:(lia) ltac:(lia)) as (pe & Hpe & Hc). exists pe. split; [lia|].
  intros pe' (Hpe' & Hc'). destruct (Z.lt_trichotomy pe pe') as [L|[L|L]]; [|assumption|].
  - specialize (Cm (pe + 1) pe'). lia.
  - specialize (Cm (pe' + 1) pe). lia.
Qed.
Print Assumptions C42_shots_partition.
Example C42_nonvacuous : rounding (fun q => q) /\ (first_shot (fun q => q) 10 4 1, end_shot (fun q => q) 10 4 1, first_shot (fun q => q) 10 4 3, end_shot (fun q => q) 10 4 3) = (3, 5, 8, 10).
Proof.
  split; [|vm_compute; reflexivity]. unfold rounding. split; [auto|]. split; [reflexivity|]. intros a Ha. rewrite <- (Qmult_1_r a) at 2.
  rewrite (Qmult_comm a), (Qmult_comm a 1). apply Qmult_le_compat_r; [discriminate|exact Ha].
Qed.

(** ** C43 *)
(** the suffix goes in front of the extension when ".su" occurs only there *)
Theorem C43_keeps_extension : forall base suffix, before (txt ".su") (base ++ txt ".su") = Some base -> (List.length suffix < 97)%nat ->
  name_ext (base ++ txt ".su") suffix = Some (base ++ suffix ++ txt ".su").
Proof.
  intros base suffix H Hs. unfold name_ext. rewrite H. rewrite app_length. change (List.length (txt ".su")) with 3%nat.
  destruct (Z.ltb_spec (Z.of_nat (List.length suffix + 3)) 100); [reflexivity|lia].
Qed.
Print Assumptions C43_keeps_extension.
(** names without an extension get one *)
Theorem C43_adds_extension : forall base suffix, ~ In "."%char base -> (List.length suffix < 97)%nat -> name_ext base suffix = Some (base ++ suffix ++ txt ".su").
Proof.
  intros base suffix H Hs.
  assert (B : forall p, before ("."%char :: p) base = None).
  { intros p. induction base as [|c r IH]; [reflexivity|]. cbn [before starts_with]. destruct (Ascii.eqb_spec "."%char c) as [<-|]; [exfalso; apply H; now left|].
    cbn [andb]. rewrite IH by (intros Hi; apply H; now right). reflexivity. }
  assert (L : before_last "."%char base = None).
  { clear B. induction base as [|c r IH]; [reflexivity|]. cbn [before_last]. rewrite IH by (intros Hi; apply H; now right).
    destruct (Ascii.eqb_spec c "."%char) as [->|]; [exfalso; apply H; now left|reflexivity]. }
  unfold name_ext. change (txt ".su") with ("."%char :: txt "su"). change (txt ".segy") with ("."%char :: txt "segy").
  change (txt ".mat") with ("."%char :: txt "mat"). change (txt ".hdf") with ("."%char :: txt "hdf"). rewrite !B, L. rewrite app_length.
  change (List.length ("."%char :: txt "su")) with 3%nat. destruct (Z.ltb_spec (Z.of_nat (List.length suffix + 3)) 100); [reflexivity|lia].
Qed.
Print Assumptions C43_adds_extension.
(** different suffixes give different files, for every base name *)
Theorem C43_distinct : forall name s1 s2 f, name_ext name s1 = Some f -> name_ext name s2 = Some f -> s1 = s2.
Proof.
  intros name s1 s2 f. unfold name_ext.
  assert (G : forall pre dot, (if Z.of_nat (List.length (s1 ++ dot)) <? 100 then Some (pre ++ s1 ++ dot) else None) = Some f ->
     (if Z.of_nat (List.length (s2 ++ dot)) <? 100 then Some (pre ++ s2 ++ dot) else None) = Some f -> s1 = s2).
  { intros pre dot. destruct (_ <? 100); [|discriminate]. destruct (_ <? 100); [|discriminate]. intros E1 E2. rewrite <- E2 in E1. injection E1 as E1.
    apply app_inv_head in E1. now apply app_inv_tail in E1. }
  destruct (before (txt ".su") name); [apply G|]. destruct (before (txt ".segy") name); [apply G|]. destruct (before (txt ".mat") name); [apply G|].
  destruct (before (txt ".hdf") name); [apply G|]. destruct (before_last _ name); apply G.
Qed.
Print Assumptions C43_distinct.
(** but a ".su" earlier in the path cuts the name there, and different names collide *)
Theorem C43_path_refuted : name_ext (txt "/data.surface/shot.su") (txt "_rvz") = Some (txt "/data_rvz.su") /\
  name_ext (txt "/data.surface/line.su") (txt "_rvz") = Some (txt "/data_rvz.su").
Proof. split; vm_compute; reflexivity. Qed.
Print Assumptions C43_path_refuted.
(** a long suffix overruns the local buffer *)
Theorem C43_long_suffix : forall name suffix, (97 <= List.length suffix)%nat -> name_ext name suffix = None.
Proof.
  intros name suffix H. unfold name_ext.
  assert (G : forall pre dot, (3 <= List.length dot)%nat -> (if Z.of_nat (List.length (suffix ++ dot)) <? 100 then Some (pre ++ suffix ++ dot) else None) = None).
  { intros pre dot Hd. rewrite app_length. destruct (Z.ltb_spec (Z.of_nat (List.length suffix + List.length dot)) 100); [lia|reflexivity]. }
  destruct (before (txt ".su") name); [apply G; cbn; lia|]. destruct (before (txt ".segy") name); [apply G; cbn; lia|]. destruct (before (txt ".mat") name); [apply G; cbn; lia|].
  destruct (before (txt ".hdf") name); [apply G; cbn; lia|]. destruct (before_last _ name); apply G; cbn; lia.
Qed.
Print Assumptions C43_long_suffix.
Example C43_nonvacuous : before (txt ".su") (txt "shot.5" ++ txt ".su") = Some (txt "shot.5") /\
  name_ext (txt "shot.5.su") (txt "_rvz") = Some (txt "shot.5_rvz.su") /\ name_ext (txt "shot.5") (txt "_rvz") = Some (txt "shot_rvz.su") /\
  name_ext (txt "shot.hdf") (txt "_rp") = Some (txt "shot_rp.hdf").
Proof. conjs; vm_compute; reflexivity. Qed.

(** ** C54 *)
(** the staggered grids: normal stresses on the points (ix,iz), vx half a cell to the left, vz
    half a cell above, txz both *)
Local Open Scope Q_scope.
Definition affine (a b c x z : Q) : Q := a + b * x + c * z.
Definition position (f : field) (ix iz : Z) : Q * Q :=
  match f with
  | VX => (inject_Z ix - (1 # 2), inject_Z iz)
  | VZ => (inject_Z ix, inject_Z iz - (1 # 2))
  | TXZ => (inject_Z ix - (1 # 2), inject_Z iz - (1 # 2))
  | _ => (inject_Z ix, inject_Z iz)
  end.
(** the memory holds an affine function in one wave field and zero in the others; the medium is arbitrary *)
Definition only (f : field) (a b c : Q) (m : mem) : Prop :=
  forall h ix iz, wavefield h = true -> m (h, ix, iz) = if field_eq_dec h f then affine a b c (fst (position h ix iz)) (snd (position h ix iz)) else 0.
Definition source_field (c : component) : field := match c with Rvx => VX | Rvz => VZ | Rtxx => TXX | Rtxz => TXZ | _ => TZZ end.
(** where, relative to the receiver's grid point, a component is recorded *)
Definition recorded_at (int_p int_vx int_vz : Z) (c : component) : Q * Q :=
  match c with
  | Rp => if (int_p =? 1)%Z then (0, - (1 # 2)) else if (int_p =? 2)%Z then (- (1 # 2), 0) else (0, 0)
  | Rtxz => if ((int_vz =? 2) || (int_vx =? 2))%Z then (0, 0) else (1 # 2, 1 # 2)
  | Rvz => if (int_vz =? 1)%Z then (- (1 # 2), 0) else if (int_vz =? 2)%Z then (0, 0) else (0, 1 # 2)
  | Rvx => if (int_vx =? 1)%Z then (0, - (1 # 2)) else if (int_vx =? 2)%Z then (0, 0) else (1 # 2, 0)
  | _ => (0, 0)
  end.
Lemma only_rd f a b c m h ix iz : only f a b c m -> wavefield h = true -> m (h, ix, iz) = if field_eq_dec h f then affine a b c (fst (position h ix iz)) (snd (position h ix iz)) else 0.
Proof. auto. Qed.
Ltac rds H := repeat match goal with |- context [?m (?h, ?ix, ?iz)] => rewrite (only_rd _ _ _ _ _ h ix iz H eq_refl); cbn [field_eq_dec field_rec field_rect position fst snd] end.
Theorem C54_positions : forall acoustic int_p int_vx int_vz dx dz c a b e m ix iz,
  In c [Rp; Rtxx; Rtzz; Rtxz; Rvz; Rvx] -> (c = Rvx -> int_vx = 2%Z -> acoustic = true) -> only (source_field c) a b e m ->
  eval Qops m (at_gridpoint acoustic int_p int_vx int_vz dx dz c ix iz) ==
  affine a b e (inject_Z ix + fst (recorded_at int_p int_vx int_vz c)) (inject_Z iz + snd (recorded_at int_p int_vx int_vz c)).
Proof.
  intros ac ip ivx ivz dx dz c a b e m ix iz Hc Hv H. unfold at_gridpoint, recorded_at.
  assert (P1 : forall k, inject_Z (k + 1) == inject_Z k + 1) by (intros; rewrite inject_Z_plus; reflexivity).
  assert (P2 : forall k, inject_Z (k + 2) == inject_Z k + 2) by (intros; rewrite inject_Z_plus; reflexivity).
  assert (M1 : forall k, inject_Z (k - 1) == inject_Z k - 1) by (intros; unfold Z.sub; rewrite inject_Z_plus; reflexivity).
  assert (M2 : forall k, inject_Z (k - 2) == inject_Z k - 2) by (intros; unfold Z.sub; rewrite inject_Z_plus; reflexivity).
  cbn [In] in Hc. decompose [or] Hc; try contradiction; subst c; cbn [source_field] in H.
  - destruct (ip =? 1)%Z; [|destruct (ip =? 2)%Z]; unfold p_back, rec_dvx, rec_dvz, mean4; destruct ac; cbn [eval Qops v_lit v_add v_sub v_mul half lit fst snd];
      rds H; unfold affine; rewrite ?M1, ?P1, ?P2, ?M2; ring.
  - cbn [eval fst snd]. rds H. unfold affine. ring.
  - cbn [eval fst snd]. rds H. unfold affine. ring.
  - destruct (_ || _); unfold mean4; cbn [eval Qops v_lit v_add v_sub v_mul quarter lit fst snd]; rds H; unfold affine; rewrite ?M1, ?P1; ring.
  - destruct (ivz =? 1)%Z; [|destruct (ivz =? 2)%Z]; unfold mean4, vz_forward; destruct ac; cbn [eval Qops v_lit v_add v_sub v_mul half quarter lit fst snd];
      rds H; unfold affine; rewrite ?M1, ?P1; ring.
  - destruct (ivx =? 1)%Z; [|destruct (Z.eqb_spec ivx 2) as [E|E]]; [| |]; try (rewrite (Hv eq_refl E)); unfold mean4, vx_forward; cbn [eval Qops v_lit v_add v_sub v_mul half quarter lit fst snd];
      rds H; unfold affine; rewrite ?M1, ?P1; ring.
Qed.
Print Assumptions C54_positions.
(** the elastic Vx interpolation to the pressure points: half of the value *)
Theorem C54_elastic_vx_refuted : forall dx dz m ix iz a, only VX a 0 0 m ->
  eval Qops m (at_gridpoint false 0 2 0 dx dz Rvx ix iz) == (1 # 2) * a.
Proof.
  intros dx dz m ix iz a H. unfold at_gridpoint. cbn [Z.eqb Pos.eqb]. unfold vx_forward. cbn [eval Qops v_lit v_add v_sub v_mul half lit]. rds H. unfold affine. ring.
Qed.
Print Assumptions C54_elastic_vx_refuted.
(** Vz interpolated to the Vx positions is not where Vx is recorded, nor Vx interpolated to Vz *)
Theorem C54_colocation_refuted : forall dx dz m1 m2 ix iz, only VZ 0 1 0 m1 -> only VX 0 1 0 m2 ->
  eval Qops m2 (at_gridpoint true 0 0 1 dx dz Rvx ix iz) - eval Qops m1 (at_gridpoint true 0 0 1 dx dz Rvz ix iz) == 1.
Proof.
  intros dx dz m1 m2 ix iz H1 H2. rewrite (C54_positions true 0 0 1 dx dz Rvz 0 1 0 m1 ix iz), (C54_positions true 0 0 1 dx dz Rvx 0 1 0 m2 ix iz);
    auto; try (cbn; tauto); try discriminate. unfold affine. cbn. ring.
Qed.
Print Assumptions C54_colocation_refuted.
(** derivatives, divergence and rotation of affine velocity fields *)
Definition velocities (a b c a' b' c' : Q) (m : mem) : Prop := forall ix iz,
  m (VX, ix, iz) = affine a b c (inject_Z ix - (1 # 2)) (inject_Z iz) /\ m (VZ, ix, iz) = affine a' b' c' (inject_Z ix) (inject_Z iz - (1 # 2)).
Theorem C54_derivatives : forall acoustic int_p int_vx int_vz dx dz a b c a' b' c' m ix iz, ~ dx == 0 -> ~ dz == 0 -> velocities a b c a' b' c' m ->
  let r := fun comp => eval Qops m (at_gridpoint acoustic int_p int_vx int_vz dx dz comp ix iz) in
  r Rdxvx == b / dx /\ r Rdzvz == c' / dz /\ r Rpp == (b + c') / dx /\ r Rss == (c - b') / dx.
Proof.
  intros ac ip ivx ivz dx dz a b c a' b' c' m ix iz Hdx Hdz H r.
  assert (P1 : forall k, inject_Z (k + 1) == inject_Z k + 1) by (intros; rewrite inject_Z_plus; reflexivity).
  assert (P2 : forall k, inject_Z (k + 2) == inject_Z k + 2) by (intros; rewrite inject_Z_plus; reflexivity).
  assert (M1 : forall k, inject_Z (k - 1) == inject_Z k - 1) by (intros; unfold Z.sub; rewrite inject_Z_plus; reflexivity).
  assert (HX : forall ix iz, m (VX, ix, iz) = affine a b c (inject_Z ix - (1 # 2)) (inject_Z iz)) by apply H.
  assert (HZ : forall ix iz, m (VZ, ix, iz) = affine a' b' c' (inject_Z ix) (inject_Z iz - (1 # 2))) by apply H.
  unfold r, at_gridpoint, rec_dvx, rec_dvz. cbn [eval Qops v_lit v_add v_sub v_mul v_div lit]. rewrite !HX, !HZ. unfold affine. rewrite !P1, !P2, !M1.
  repeat split; field; assumption.
Qed.
Print Assumptions C54_derivatives.
(** interpolation between grid points *)
Theorem C54_bilinear : forall dx c a b e m ix iz rdx rdz,
  In c [Rp; Rtxx; Rtzz; Rtxz; Rvz; Rvx] -> only (source_field c) a b e m ->
  eval Qops m (bilinear dx c ix iz rdx rdz) ==
  affine a b e (inject_Z ix + rdx + fst (recorded_at 3 0 0 c)) (inject_Z iz + rdz + snd (recorded_at 3 0 0 c)).
Proof.
  intros dx c a b e m ix iz rdx rdz Hc H.
  assert (P1 : forall k, inject_Z (k + 1) == inject_Z k + 1) by (intros; rewrite inject_Z_plus; reflexivity).
  cbn [In] in Hc. decompose [or] Hc; try contradiction; subst c; cbn [source_field] in H; unfold bilinear, corner;
    cbn [eval Qops v_lit v_add v_sub v_mul recorded_at Z.eqb Pos.eqb orb fst snd]; rds H; unfold affine; rewrite ?P1; ring.
Qed.
Print Assumptions C54_bilinear.
Example C54_nonvacuous : exists m, only TZZ 1 2 3 m /\ eval Qops m (at_gridpoint true 1 0 0 1 1 Rp 4 5) == 1 + 2 * 4 + 3 * (9 # 2).
Proof.
  exists (fun '(h, ix, iz) => if field_eq_dec h TZZ then affine 1 2 3 (inject_Z ix) (inject_Z iz) else 0). split; [|vm_compute; reflexivity].
  intros h ix iz _. destruct (field_eq_dec h TZZ) as [->|]; reflexivity.
Qed.
Local Close Scope Q_scope.
Local Open Scope Z_scope.

(** ** C55 *)
(** everything read for a receiver of the model is inside the arrays, for order 6 and more or
    with tapers on all sides *)
Lemma reads_box (e : expr) g b x0 x1 z0 z1 :
  (forall f ix iz, In (f, ix, iz) (reads e) -> match f with TAPX | TAPZ | TAPXZ | SRC => False | _ => x0 <= ix <= x1 /\ z0 <= iz <= z1 end) ->
  0 <= x0 -> x1 < nax g -> 0 <= z0 -> z1 < naz g -> Forall (inside g b 0) (reads e).
Proof.
  intros H Hx0 Hx1 Hz0 Hz1. apply Forall_forall. intros [[f ix] iz] Hi. specialize (H f ix iz Hi). unfold inside. destruct f; (contradiction || lia).
Qed.
Theorem C55_receivers_inside : forall nx nz iorder b acoustic int_p int_vx int_vz dx dz c x z,
  In iorder [4; 6; 16] -> 0 <= npml b -> (iorder = 4 -> 0 < npml b /\ top b = 4 /\ bot b = 4 /\ lef b = 4 /\ rig b = 4) ->
  0 <= x < nx -> 0 <= z < nz ->
  let g := getgrid nx nz iorder b in let '(ix, iz) := rec_cell g b (x, z) in
  Forall (inside g b 0) (reads (at_gridpoint acoustic int_p int_vx int_vz dx dz c ix iz)) /\
  forall rdx rdz, Forall (inside g b 0) (reads (bilinear dx c ix iz rdx rdz)).
Proof.
  intros nx nz iorder b ac ip ivx ivz dx dz c x z Ho Hn H4 Hx Hz g. unfold rec_cell. cbn [fst snd].
  set (ix := x + _). set (iz := z + _).
  assert (B : 0 <= ix - 2 /\ ix + 3 < nax g /\ 0 <= iz - 2 /\ iz + 3 < naz g).
  { unfold ix, iz, g. cbn [getgrid nax naz ioPx ioPz]. cbn [In] in Ho. unfold tapered. decompose [or] Ho; try contradiction; subst iorder.
    - destruct H4 as (H & -> & -> & -> & ->); [reflexivity|]. change (4 / 2) with 2. rewrite Z.eqb_refl. lia.
    - change (6 / 2) with 3. destruct (top b =? 4), (bot b =? 4), (lef b =? 4), (rig b =? 4); lia.
    - change (16 / 2) with 8. destruct (top b =? 4), (bot b =? 4), (lef b =? 4), (rig b =? 4); lia. }
  split; [|intros rdx rdz]; (apply (reads_box _ g b (ix - 2) (ix + 3) (iz - 2) (iz + 3)); try lia); intros f jx jz Hi.
  - destruct c; destruct ac; unfold at_gridpoint, p_back, vz_forward, vx_forward in Hi;
      repeat match type of Hi with context [if ?t then _ else _] => destruct t end;
      cbn -[Z.add Z.sub] in Hi; decompose [or] Hi; try contradiction;
      match goal with H : (_, _, _) = (_, _, _) |- _ => inversion H; subst; lia end.
  - destruct c; unfold bilinear, corner in Hi; cbn -[Z.add Z.sub] in Hi; decompose [or] Hi; try contradiction;
      match goal with H : (_, _, _) = (_, _, _) |- _ => inversion H; subst; lia end.
Qed.
Print Assumptions C55_receivers_inside.
(** order 4 without a taper at the left: a receiver in the first column reads column -1 *)
Theorem C55_untapered_refuted : exists nx nz b x z, lef b = 3 /\ 0 <= x < nx /\ 0 <= z < nz /\
  let g := getgrid nx nz 4 b in let '(ix, iz) := rec_cell g b (x, z) in
  ~ Forall (inside g b 0) (reads (at_gridpoint true 0 2 0 1 1 Rvx ix iz)).
Proof.
  exists 5, 5, (mk_bnd 4 4 3 4 2), 0, 2. conjs; try (cbn; lia). cbv zeta. intros H.
  assert (K : inside (getgrid 5 5 4 (mk_bnd 4 4 3 4 2)) (mk_bnd 4 4 3 4 2) 0 (TZZ, -1, 5)); [|cbn in K; lia].
  rewrite Forall_forall in H. apply H. vm_compute. tauto.
Qed.
Print Assumptions C55_untapered_refuted.
Example C55_nonvacuous : rec_cell (getgrid 5 5 4 (mk_bnd 4 4 4 4 2)) (mk_bnd 4 4 4 4 2) (0, 0) = (3, 3).
Proof. reflexivity. Qed.

(** ** C41 *)
Lemma stepped_length a b step : 0 < step -> a <= b -> Z.of_nat (List.length (stepped a b step)) = 1 + Z.quot (b - a) step.
Proof. intros Hs Hab. unfold stepped. rewrite map_length, seq_length. rewrite Z.quot_div_nonneg by lia. assert (0 <= (b - a) / step) by (apply Z.div_pos; lia). lia. Qed.
Lemma stepped_nth a b step k : 0 < step -> a <= b -> 0 <= k < 1 + Z.quot (b - a) step -> nth_error (stepped a b step) (Z.to_nat k) = Some (a + k * step).
Proof.
  intros Hs Hab Hk. unfold stepped. rewrite Z.quot_div_nonneg in Hk by lia.
  rewrite nth_error_map, (nth_error_nth' _ 0%nat) by (rewrite seq_length; lia). rewrite seq_nth by lia. cbn. f_equal. lia.
Qed.
(** the announced number of traces and samples; sample j of trace i is the value at the window's
    point (i,j), with the origin of the Vx grid *)
Theorem C41_snapshot : forall V (O : ops V) m g sdx c mod_nt nrsna sk dl x1 x2 z1 z2 skx skz,
  0 < skx -> 0 < skz -> x1 <= x2 -> z1 <= z2 ->
  let s := snapPar mod_nt nrsna sk dl x1 x2 z1 z2 skx skz in
  let t := snap_traces O m g sdx c s in
  Z.of_nat (List.length t) = snx s /\ (forall tr, In tr t -> Z.of_nat (List.length tr) = snz s) /\
  forall i j, 0 <= i < snx s -> 0 <= j < snz s -> exists tr, nth_error t (Z.to_nat i) = Some tr /\
    nth_error tr (Z.to_nat j) = Some (eval O m (snap_expr sdx c (x1 + i * skx + ioXx g) (x1 + i * skx + ioXx g + 1) (z1 + j * skz + ioXz g))).
Proof.
  intros V O m g sdx c mod_nt nrsna sk dl x1 x2 z1 z2 skx skz Hx Hz Hxx Hzz s t. unfold t, snap_traces, snap_exprs. cbn [s snapPar sx1 sx2 sz1 sz2 sskipdx sskipdz snx snz].
  conjs.
  - rewrite !map_length. apply stepped_length; lia.
  - intros tr Hi. apply in_map_iff in Hi as (l & <- & Hi). apply in_map_iff in Hi as (ixs & <- & _). rewrite !map_length. rewrite stepped_length by lia. do 2 f_equal. lia.
  - intros i j Hi Hj. eexists. split; [rewrite !nth_error_map, (stepped_nth x1 x2 skx i) by lia; reflexivity|].
    rewrite !nth_error_map, (stepped_nth (z1 + ioXz g) (z2 + ioXz g) skz j). + cbn [option_map]. do 3 f_equal. lia. + lia. + lia.
    + replace (z2 + ioXz g - (z1 + ioXz g)) with (z2 - z1) by lia. lia.
Qed.
Print Assumptions C41_snapshot.
(** written at the announced number of time steps, delay + k*skipdt, all inside the run *)
Theorem C41_times : forall mod_nt nrsna sk dl x1 x2 z1 z2 skx skz it,
  0 < sk -> 0 <= dl < mod_nt -> 1 <= nrsna ->
  let s := snapPar mod_nt nrsna sk dl x1 x2 z1 z2 skx skz in
  nsnap s = Z.min nrsna ((mod_nt - 1 - dl) / sk + 1) /\
  (snap_now s it = true <-> exists k, 0 <= k < nsnap s /\ it = dl + k * sk) /\ (snap_now s it = true -> 0 <= it < mod_nt).
Proof.
  intros mod_nt nrsna sk dl x1 x2 z1 z2 skx skz it Hs Hd Hn s.
  assert (E : nsnap s = Z.min nrsna ((mod_nt - 1 - dl) / sk + 1)).
  { cbn [s snapPar nsnap]. rewrite (Z.quot_div_nonneg (mod_nt - (dl + 1))) by lia. replace (mod_nt - (dl + 1)) with (mod_nt - 1 - dl) by lia.
    assert (0 <= (mod_nt - 1 - dl) / sk) by (apply Z.div_pos; lia). set (q := (mod_nt - 1 - dl) / sk) in *.
    replace (dl + 1 + Z.min ((nrsna - 1) * sk) (q * sk) - (dl + 1)) with (Z.min (nrsna - 1) q * sk) by nia. rewrite Z.quot_mul by lia. lia. }
  assert (I : snap_now s it = true <-> exists k, 0 <= k < nsnap s /\ it = dl + k * sk).
  { unfold snap_now. change (sdelay s) with dl. change (sskipdt s) with sk. rewrite !andb_true_iff, Z.eqb_eq, !Z.leb_le. split.
    - intros [[H1 H2] H3]. rewrite Z.rem_mod_nonneg in H1 by lia. exists ((it - dl) / sk). pose proof (Z.div_mod (it - dl) sk ltac:(lia)).
      assert (0 <= (it - dl) / sk) by (apply Z.div_pos; lia). split; [nia|lia].
    - intros (k & Hk & ->). replace (dl + k * sk - dl) with (k * sk) by lia. rewrite Z.rem_mul by lia. nia. }
  conjs; [exact E|exact I|]. intros H. apply I in H as (k & Hk & ->). pose proof (Z.mul_div_le (mod_nt - 1 - dl) sk Hs). split; nia.
Qed.
Print Assumptions C41_times.
(** reads inside the arrays for windows of the model *)
Theorem C41_inside : forall nx nz iorder b sdx c s tr e,
  In iorder [4; 6; 16] -> 0 <= npml b -> 0 < sskipdx s -> 0 < sskipdz s -> 0 <= sx1 s <= sx2 s -> sx2 s < nx -> 0 <= sz1 s <= sz2 s -> sz2 s < nz ->
  let g := getgrid nx nz iorder b in In tr (snap_exprs g sdx c s) -> In e tr -> Forall (inside g b 0) (reads e).
Proof.
  intros nx nz iorder b sdx c s tr e Ho Hn Hkx Hkz Hx Hx2 Hz Hz2 g Ht He. apply in_map_iff in Ht as (ixs & <- & Hix). apply in_map_iff in He as (iz & <- & Hiz).
  assert (ST : forall x a b step, 0 < step -> a <= b -> In x (stepped a b step) -> a <= x <= b).
  { clear. intros x a b step Hs Hab Hi. apply in_map_iff in Hi as (k & <- & Hk). apply in_seq in Hk. assert (Z.of_nat k <= (b - a) / step) by lia.
    pose proof (Z.mul_div_le (b - a) step Hs). nia. }
  apply ST in Hix; [|lia|lia]. apply ST in Hiz; [|lia|lia].
  set (ix := ixs + ioXx g). apply (reads_box _ g b (ix - 1) (ix + 2) (iz - 1) (iz + 2)).
  - intros f jx jz Hi. destruct c; cbn -[Z.add Z.sub] in Hi; decompose [or] Hi; try contradiction;
      match goal with H : (_, _, _) = (_, _, _) |- _ => inversion H; subst; unfold ix in *; lia end.
  - cbn [In] in Ho. unfold ix, g in *. cbn [getgrid ioXx ioXz nax naz] in *. unfold tapered in *. decompose [or] Ho; try contradiction; subst iorder;
      (change (4 / 2) with 2 in * || change (6 / 2) with 3 in * || change (16 / 2) with 8 in * ); destruct (top b =? 4), (bot b =? 4), (lef b =? 4), (rig b =? 4); lia.
  - cbn [In] in Ho. unfold ix, g in *. cbn [getgrid ioXx ioXz nax naz] in *. unfold tapered in *. decompose [or] Ho; try contradiction; subst iorder;
      (change (4 / 2) with 2 in * || change (6 / 2) with 3 in * || change (16 / 2) with 8 in * ); destruct (top b =? 4), (bot b =? 4), (lef b =? 4), (rig b =? 4); lia.
  - cbn [In] in Ho. unfold ix, g in *. cbn [getgrid ioXx ioXz nax naz] in *. unfold tapered in *. decompose [or] Ho; try contradiction; subst iorder;
      (change (4 / 2) with 2 in * || change (6 / 2) with 3 in * || change (16 / 2) with 8 in * ); destruct (top b =? 4), (bot b =? 4), (lef b =? 4), (rig b =? 4); lia.
  - cbn [In] in Ho. unfold ix, g in *. cbn [getgrid ioXx ioXz nax naz] in *. unfold tapered in *. decompose [or] Ho; try contradiction; subst iorder;
      (change (4 / 2) with 2 in * || change (6 / 2) with 3 in * || change (16 / 2) with 8 in * ); destruct (top b =? 4), (bot b =? 4), (lef b =? 4), (rig b =? 4); lia.
Qed.
Print Assumptions C41_inside.
(** the pressure of a snapshot is taken one column to the right of the point where a receiver,
    and a source, at the same model position is *)
Theorem C41_position_refuted : forall nx nz iorder b x z sdx, In iorder [4; 6; 16] ->
  let g := getgrid nx nz iorder b in let '(ix, iz) := rec_cell g b (x, z) in
  snap_expr sdx Rp (x + ioXx g) (x + ioXx g + 1) (z + ioXz g) = Rd TZZ (ix + 1) iz.
Proof.
  intros nx nz iorder b x z sdx _. cbn [rec_cell getgrid ioXx ioXz ioPx ioPz fst snd snap_expr]. f_equal; lia.
Qed.
Print Assumptions C41_position_refuted.
(** snapshots with boundaries: one trace per column with one sample per row, if neither Vz nor
    Txz is among the components *)
Theorem C41_with_boundaries : forall g sdx c, In c [Rvx; Rp; Rtzz; Rtxx] -> 0 <= naz g ->
  snap_exprs_bnd g sdx false false c = map (fun ix => map (fun iz => Rd (match c with Rvx => VX | Rtxx => TXX | _ => TZZ end) ix iz) (range 0 (naz g))) (range 0 (nax g)).
Proof.
  intros g sdx c Hc Hn. unfold snap_exprs_bnd. apply map_ext. intros ix. rewrite firstn_all2.
  - cbn [In] in Hc. decompose [or] Hc; try contradiction; subst c; reflexivity.
  - rewrite map_length. unfold range. rewrite map_length, seq_length. cbn [In] in Hc. decompose [or] Hc; try contradiction; subst c; cbn; lia.
Qed.
Print Assumptions C41_with_boundaries.
(** with Vz as well, Vx starts at row -1: the first load of the snapshot is vx[-1] *)
Theorem C41_with_boundaries_refuted : forall g sdx, 0 < naz g -> 0 < nax g ->
  exists rest traces, snap_exprs_bnd g sdx true false Rvx = (Rd VX 0 (-1) :: rest) :: traces /\ ~ inside g (mk_bnd 4 4 4 4 1) 0 (VX, 0, -1).
Proof.
  intros g sdx Hz Hx. unfold snap_exprs_bnd. rewrite (range_split 0 1 (nax g)) by lia. replace (range 0 1) with [0] by reflexivity.
  cbn [map app first_row orb]. rewrite (range_split (-1) 0 (naz g)) by lia. replace (range (-1) 0) with [-1] by reflexivity. cbn [map app].
  replace (Z.to_nat (naz g)) with (S (Z.to_nat (naz g - 1))) by lia. cbn [firstn]. eexists. eexists. split; [reflexivity|]. cbn. lia.
Qed.
Print Assumptions C41_with_boundaries_refuted.
(** beams: with a taper of n cells at the left they are taken n columns away from the receiver's cell *)
Theorem C41_beams : forall nx nz iorder b s, let g := getgrid nx nz iorder b in
  beam_cells g s = map (fun x => map (fun z => let '(ix, iz) := rec_cell g b (x, z) in
     (ix - (if tapered (lef b) then npml b else 0), iz - (if tapered (top b) then npml b else 0))) (stepped (sz1 s) (sz2 s) (sskipdz s))) (stepped (sx1 s) (sx2 s) (sskipdx s)).
Proof.
  intros nx nz iorder b s g. unfold beam_cells. apply map_ext. intros x. unfold stepped at 1. cbn [g getgrid ioPx ioPz].
  replace (sz2 s + (iorder / 2 - 1) - (sz1 s + (iorder / 2 - 1))) with (sz2 s - sz1 s) by lia. unfold stepped. rewrite !map_map. apply map_ext. intros k. cbn.
  f_equal; lia.
Qed.
Print Assumptions C41_beams.
Example C41_nonvacuous : let s := snapPar 100 4 30 5 1 7 0 4 3 2 in (nsnap s, snx s, snz s) = (4, 3, 3) /\ snap_now s 65 = true /\
  let b := mk_bnd 4 4 4 4 2 in let g := getgrid 8 5 4 b in let m := fun '((f, ix, iz) : loc) => match f with TZZ => (100 * ix + iz # 1)%Q | _ => 0%Q end in
  snap_traces Qops m g 1 Rp s = [[503; 505; 507]; [803; 805; 807]; [1103; 1105; 1107]]%Q.
Proof. cbv zeta. conjs; vm_compute; reflexivity. Qed.
