(** Lemmas about the recording model. *)
From Coq Require Import ZArith List Bool Lia QArith Ascii String.
From Verif Require Import ListAux FdMachine FdKernels FdProofs FdOutput.
Import ListNotations.
Local Open Scope Z_scope.
Ltac Zify.zify_post_hook ::= Z.to_euclidean_division_equations.

Lemma range_snoc a b : a <= b -> range a (b + 1) = range a b ++ [b].
Proof.
  intros H. unfold range. replace (Z.to_nat (b + 1 - a)) with (S (Z.to_nat (b - a))) by lia.
  rewrite seq_S, map_app. cbn [map]. do 2 f_equal. lia.
Qed.
Lemma range_nil a b : b <= a -> range a b = [].
Proof. intros H. unfold range. replace (Z.to_nat (b - a)) with 0%nat by lia. reflexivity. Qed.
Lemma range_split a b c : a <= b <= c -> range a c = range a b ++ range b c.
Proof.
  intros [H H']. unfold range. replace (Z.to_nat (c - a)) with (Z.to_nat (b - a) + Z.to_nat (c - b))%nat by lia.
  rewrite seq_app, map_app. f_equal. cbn [Nat.add]. generalize (Z.to_nat (c - b)) as n. intros n.
  assert (G : forall n k, map (fun x => a + Z.of_nat x) (seq (k + Z.to_nat (b - a)) n) = map (fun x => b + Z.of_nat x) (seq k n)).
  { clear n. induction n as [|n IH]; intros k; [reflexivity|]. cbn [seq map]. f_equal; [lia|]. apply (IH (S k)). }
  apply (G n 0%nat).
Qed.

(** ** the recorder *)
Definition count (r : recording) (it : Z) : Z := Z.quot (it - delay r + t0n r) (skipdt r) + 1.
(** the sample a time step is stored in while nothing has been written to file *)
Definition slot (r : recording) (it : Z) : Z := if count r it <? 0 then rec_nt r + count r it else count r it.

Section Rec.
Context {V : Type} (add : V -> V -> V) (accumulate : bool) (r : recording).
Hypothesis Hnt : 0 < rec_nt r.
Local Notation store_samples := (store_samples add accumulate r).
Local Notation record_step := (record_step add accumulate r).

Lemma slot_number it : sample_number r 0 it = slot r it.
Proof. unfold sample_number, slot, count. cbn. replace (it - delay r - 0 + t0n r) with (it - delay r + t0n r) by lia. reflexivity. Qed.

Definition put (q : Z) (v : Z -> V) (f f' : Z -> V) (n : Z) : Prop :=
  forall irec j, 0 <= irec < rec_n r -> 0 <= j < rec_nt r ->
    f' (irec * rec_nt r + j) = if (irec <? n) && (j =? q) then (if accumulate then add (f (irec * rec_nt r + j)) (v irec) else v irec) else f (irec * rec_nt r + j).
Lemma store_samples_ok s q v : 0 <= q < rec_nt r ->
  let s' := store_samples s q v in
  put q v (samples s) (samples s') (rec_n r) /\ outside s' = outside s /\ fileno s' = fileno s /\ isam s' = isam s /\ written s' = written s.
Proof.
  intros Hq. unfold FdOutput.store_samples.
  assert (G : forall n, 0 <= n -> n <= rec_n r -> forall s', s' = fold_left (fun s irec =>
    let i := irec * rec_nt r + q in
    if (0 <=? i) && (i <? rec_n r * rec_nt r)
    then mk_recorder (store (samples s) i (if accumulate then add (samples s i) (v irec) else v irec)) (outside s) (fileno s) (isam s) (written s)
    else mk_recorder (samples s) true (fileno s) (isam s) (written s)) (range 0 n) s ->
    put q v (samples s) (samples s') n /\ outside s' = outside s /\ fileno s' = fileno s /\ isam s' = isam s /\ written s' = written s).
  { intros n H0. pattern n. apply natlike_ind; [| |exact H0]; clear n H0.
    - intros _ s' ->. cbn. conjs; try reflexivity. intros i j Hi Hj. destruct (Z.ltb_spec i 0); [lia|]. reflexivity.
    - intros n Hn IH Hn' s' ->. rewrite <- Z.add_1_r, range_snoc, fold_left_app by lia. cbn [fold_left].
      specialize (IH ltac:(lia) _ eq_refl). set (s1 := fold_left _ (range 0 n) s) in *. destruct IH as (P & Ho & Hf & Hi & Hw). cbv zeta.
      assert (B : (0 <=? n * rec_nt r + q) && (n * rec_nt r + q <? rec_n r * rec_nt r) = true).
      { apply andb_true_intro. split; [apply Z.leb_le|apply Z.ltb_lt]; nia. }
      rewrite B. cbn [samples outside fileno isam written]. conjs; auto. intros i j Hi' Hj. unfold store.
      destruct (Z.eqb_spec (i * rec_nt r + j) (n * rec_nt r + q)) as [E|E].
      + assert (i = n) by nia. assert (j = q) by nia. subst i j. rewrite (proj2 (Z.ltb_lt n (n + 1))), Z.eqb_refl by lia. cbn [andb].
        rewrite (P n q) by lia. rewrite Z.ltb_irrefl. reflexivity.
      + rewrite P by lia. destruct (Z.eqb_spec j q) as [->|]; [|now rewrite !andb_false_r]. rewrite !andb_true_r.
        destruct (Z.ltb_spec i n), (Z.ltb_spec i (n + 1)); try reflexivity; [lia|]. assert (i = n) by lia. congruence. }
  destruct (Z.le_gt_cases 0 (rec_n r)) as [H|H]; [apply (G (rec_n r) H ltac:(lia) _ eq_refl)|].
  rewrite range_nil by lia. cbn. conjs; try reflexivity. intros i j Hi. lia.
Qed.

(** what a sample has accumulated after the time steps [its] *)
Definition heard (init : V) (wave : Z -> Z -> V) (irec j : Z) (its : list Z) : V :=
  fold_left (fun acc it => if is_recorded r it && (slot r it =? j) then (if accumulate then add acc (wave it irec) else wave it irec) else acc) its init.
Definition last_slot (its : list Z) : option Z := fold_left (fun acc it => if is_recorded r it then Some (slot r it) else acc) its None.

Definition steps_upto (init : Z -> V) (wave : Z -> Z -> V) (n : Z) : recorder :=
  fold_left (fun s it => record_step s it (wave it)) (range 0 n) (mk_recorder init false 0 None []).
Definition quiet (n : Z) : Prop := forall it, 0 <= it < n -> is_recorded r it = true -> - rec_nt r < count r it < rec_nt r.
Lemma slot_bounds it : - rec_nt r < count r it < rec_nt r -> 0 <= slot r it < rec_nt r.
Proof. unfold slot. destruct (Z.ltb_spec (count r it) 0); lia. Qed.
Lemma quiet_no_write it : - rec_nt r < count r it < rec_nt r -> writeToFile r it = false.
Proof.
  intros H. unfold writeToFile. fold (count r it). destruct (Z.eqb_spec (count r it) 0) as [|N]; [reflexivity|].
  apply Z.eqb_neq. rewrite <- Z.rem_abs_l, (Z.abs_eq (rec_nt r)) || idtac. assert (Z.abs (count r it) < rec_nt r) by lia.
  destruct (Z.lt_trichotomy (count r it) 0) as [L|[L|L]]; [|lia|].
  - replace (count r it) with (- (- count r it)) by lia. rewrite Z.rem_opp_l by lia. rewrite Z.rem_small by lia. lia.
  - rewrite Z.rem_small by lia. lia.
Qed.

Lemma steps_quiet init wave n : 0 <= n -> quiet n ->
  let s := steps_upto init wave n in
  (forall irec j, 0 <= irec < rec_n r -> 0 <= j < rec_nt r ->
     samples s (irec * rec_nt r + j) = heard (init (irec * rec_nt r + j)) wave irec j (range 0 n)) /\
  outside s = false /\ fileno s = 0 /\ isam s = last_slot (range 0 n) /\ written s = [].
Proof.
  intros H0. pattern n. apply natlike_ind; [| |exact H0]; clear n H0.
  - intros _. cbn. conjs; reflexivity.
  - intros n Hn IH HQ. rewrite <- Z.add_1_r in *. intros s. assert (Q : quiet n) by (intros it Hit; apply HQ; lia). specialize (IH Q). cbv zeta in IH.
    unfold s, steps_upto. rewrite range_snoc, fold_left_app by lia. cbn [fold_left]. fold (steps_upto init wave n). set (s1 := steps_upto init wave n) in *.
    destruct IH as (P & Ho & Hf & Hi & Hw). unfold heard, last_slot. setoid_rewrite fold_left_app. cbn [fold_left].
    unfold FdOutput.record_step. destruct (is_recorded r n) eqn:Er; [|conjs; auto].
    specialize (HQ n ltac:(lia) Er). rewrite quiet_no_write, Hf by assumption. cbn [andb]. rewrite slot_number.
    pose proof (store_samples_ok (mk_recorder (samples s1) (outside s1) 0 (Some (slot r n)) (written s1)) (slot r n) (wave n) (slot_bounds n HQ)) as G.
    cbv zeta in G. cbn [samples outside fileno isam written] in G. destruct G as (G1 & G2 & G3 & G4 & G5). conjs; try congruence.
    intros irec j Hi' Hj. rewrite (G1 irec j Hi' Hj), (P irec j Hi' Hj). rewrite (proj2 (Z.ltb_lt irec (rec_n r))) by lia. cbn [andb].
    rewrite (Z.eqb_sym j). unfold heard. reflexivity.
Qed.

Lemma record_step_mono s it v : outside s = true -> outside (record_step s it v) = true.
Proof.
  intros H. unfold FdOutput.record_step. destruct (is_recorded r it); [|exact H]. cbv zeta.
  assert (G : forall l s, outside s = true -> outside (fold_left (fun s irec =>
    let i := irec * rec_nt r + sample_number r (fileno s) it in
    if (0 <=? i) && (i <? rec_n r * rec_nt r)
    then mk_recorder (store (samples s) i (if accumulate then add (samples s i) (v irec) else v irec)) (outside s) (fileno s) (isam s) (written s)
    else mk_recorder (samples s) true (fileno s) (isam s) (written s)) l s) = true).
  { induction l as [|x l IH]; intros s' Hs; [exact Hs|]. cbn [fold_left]. apply IH. cbv zeta. destruct (_ && _); [exact Hs|reflexivity]. }
  assert (G' : forall q s, outside s = true -> outside (store_samples s q v) = true).
  { intros q. unfold FdOutput.store_samples. generalize (range 0 (rec_n r)) as l. induction l as [|x l IH]; intros s' Hs; [exact Hs|].
    cbn [fold_left]. apply IH. cbv zeta. destruct (_ && _); [exact Hs|reflexivity]. }
  destruct (_ && _).
  - unfold write_traces. cbn [isam]. destruct (isam _); cbn [outside]; [|reflexivity]. rewrite G'; [reflexivity|exact H].
  - apply G'. exact H.
Qed.
Lemma steps_mono l (wave : Z -> Z -> V) : forall s : @recorder V, outside s = true -> outside (fold_left (fun s it => record_step s it (wave it)) l s) = true.
Proof. induction l as [|it l IH]; intros s H; [exact H|]. cbn [fold_left]. apply IH, record_step_mono, H. Qed.
Lemma write_mono (s : @recorder V) fno : outside s = true -> outside (write_traces r s fno) = true.
Proof. intros H. unfold write_traces. destruct (isam s); cbn [outside]; [now rewrite H|reflexivity]. Qed.

(** the whole shot when the counts stay in range *)
Lemma shot_quiet init wave : 0 <= it1 r -> 0 < rec_n r -> quiet (it1 r) ->
  match last_slot (range 0 (it1 r)) with
  | None => outside (shot add accumulate r init wave) = true
  | Some k => outside (shot add accumulate r init wave) = false /\ fileno (shot add accumulate r init wave) = 0 /\
    written (shot add accumulate r init wave) = [mk_outfile 0 (map (fun irec => map (fun j => heard (init (irec * rec_nt r + j)) wave irec j (range 0 (it1 r))) (range 0 (k + 1))) (range 0 (rec_n r)))] /\
    (forall irec j, 0 <= irec < rec_n r -> 0 <= j < rec_nt r -> samples (shot add accumulate r init wave) (irec * rec_nt r + j) = heard (init (irec * rec_nt r + j)) wave irec j (range 0 (it1 r)))
  end.
Proof.
  intros Hi1 Hn HQ. destruct (steps_quiet init wave (it1 r) Hi1 HQ) as (P & Ho & Hf & Hi & Hw). unfold shot.
  change (fold_left _ (range 0 (it1 r)) _) with (steps_upto init wave (it1 r)). set (s := steps_upto init wave (it1 r)) in *.
  rewrite Hf. cbn [Z.eqb]. unfold write_traces. cbn [isam]. rewrite Hi.
  assert (L : forall k, last_slot (range 0 (it1 r)) = Some k -> 0 <= k < rec_nt r).
  { intros k. unfold last_slot. assert (G : forall l acc, (forall it, In it l -> is_recorded r it = true -> - rec_nt r < count r it < rec_nt r) ->
      (forall k, acc = Some k -> 0 <= k < rec_nt r) -> fold_left (fun acc it => if is_recorded r it then Some (slot r it) else acc) l acc = Some k -> 0 <= k < rec_nt r).
    { induction l as [|x l IH]; intros acc Hl Ha E; [apply Ha, E|]. cbn [fold_left] in E. apply IH in E; [exact E|intros; apply Hl; [now right|assumption]|].
      intros k' E'. destruct (is_recorded r x) eqn:Ex; [|now apply Ha]. inversion E'. apply slot_bounds, Hl; [now left|exact Ex]. }
    apply G; [|discriminate]. intros it Hit. apply in_range in Hit. now apply HQ. }
  destruct (last_slot (range 0 (it1 r))) as [k|] eqn:El; cbn [outside fileno written samples]; [|reflexivity].
  specialize (L k eq_refl). rewrite Ho, Hw. cbn [app orb]. conjs; [apply Z.ltb_ge; nia|reflexivity| |exact P].
  f_equal. f_equal. apply map_ext_in. intros irec Hr. apply in_range in Hr. apply map_ext_in. intros j Hj. apply in_range in Hj. apply P; lia.
Qed.
End Rec.

(** recording without negative times *)
Section NoShift.
Context (r : recording).
Hypothesis Ht0 : t0n r = 0.
Hypothesis Hs : 0 < skipdt r.
Hypothesis Hd : 0 <= delay r < mod_nt r.
Hypothesis Hnt : 0 < rec_nt r.
(** number of the last sample *)
Definition last_sample : Z := (mod_nt r - 1 - delay r) / skipdt r + 1.
Lemma recorded_iff it : is_recorded r it = true <-> exists k, 0 <= k /\ it = delay r + k * skipdt r.
Proof.
  unfold is_recorded. rewrite andb_true_iff, Z.eqb_eq, Z.leb_le. split.
  - intros [H1 H2]. rewrite Z.rem_mod_nonneg in H1 by lia. exists ((it - delay r) / skipdt r). split; [apply Z.div_pos; lia|].
    pose proof (Z.div_mod (it - delay r) (skipdt r) ltac:(lia)). lia.
  - intros (k & Hk & ->). split; [|nia]. replace (delay r + k * skipdt r - delay r) with (k * skipdt r) by lia. apply Z.rem_mul. lia.
Qed.
Lemma count_at k : 0 <= k -> count r (delay r + k * skipdt r) = k + 1.
Proof. intros Hk. unfold count. rewrite Ht0. replace (delay r + k * skipdt r - delay r + 0) with (k * skipdt r) by lia. rewrite Z.quot_mul; lia. Qed.
Lemma slot_at k : 0 <= k -> slot r (delay r + k * skipdt r) = k + 1.
Proof. intros Hk. unfold slot. rewrite count_at by lia. destruct (Z.ltb_spec (k + 1) 0); lia. Qed.
Lemma it1_nt : it1 r = mod_nt r.
Proof. unfold it1. lia. Qed.
Lemma last_sample_pos : 1 <= last_sample.
Proof. unfold last_sample. assert (0 <= (mod_nt r - 1 - delay r) / skipdt r) by (apply Z.div_pos; lia). lia. Qed.
Lemma in_time k : 0 <= k -> delay r + k * skipdt r < mod_nt r <-> k < last_sample.
Proof.
  intros Hk. unfold last_sample. pose proof (Z.div_mod (mod_nt r - 1 - delay r) (skipdt r) ltac:(lia)).
  pose proof (Z.mod_pos_bound (mod_nt r - 1 - delay r) (skipdt r) Hs). nia.
Qed.
Lemma quiet_iff n : n <= mod_nt r -> (forall k, 0 <= k -> delay r + k * skipdt r < n -> k + 1 < rec_nt r) -> quiet r n.
Proof.
  intros Hn H it Hit Hr. apply recorded_iff in Hr as (k & Hk & ->). rewrite count_at by lia. specialize (H k Hk ltac:(lia)). lia.
Qed.

Lemma last_slot_eq : last_slot r (range 0 (mod_nt r)) = Some last_sample.
Proof.
  pose proof last_sample_pos as L. set (e := delay r + (last_sample - 1) * skipdt r).
  assert (He : e < mod_nt r) by (apply in_time; lia).
  assert (He0 : 0 <= e) by (unfold e; nia).
  rewrite (range_split 0 e) by lia. rewrite (range_split e (e + 1)) by lia. unfold last_slot. rewrite !fold_left_app.
  assert (R : range e (e + 1) = [e]). { rewrite range_snoc, range_nil by lia. reflexivity. }
  rewrite R. cbn [fold_left]. rewrite (proj2 (recorded_iff e)) by (exists (last_sample - 1); split; [lia|reflexivity]).
  replace (slot r e) with last_sample by (unfold e; rewrite slot_at; lia).
  assert (G : forall l acc, (forall it, In it l -> is_recorded r it = false) -> fold_left (fun acc it => if is_recorded r it then Some (slot r it) else acc) l acc = acc).
  { induction l as [|x l IH]; intros acc Hl; [reflexivity|]. cbn [fold_left]. rewrite (Hl x) by now left. apply IH. intros; apply Hl; now right. }
  apply G. intros it Hit. apply in_range in Hit. apply not_true_is_false. intros E. apply recorded_iff in E as (k & Hk & ->).
  assert (k < last_sample) by (apply in_time; lia). unfold e in Hit. nia.
Qed.

Context {V : Type} (add : V -> V -> V) (accumulate : bool).
Lemma heard_at init wave irec j : 0 <= j <= last_sample ->
  heard add accumulate r init wave irec j (range 0 (mod_nt r)) =
  if j =? 0 then init else if accumulate then add init (wave (delay r + (j - 1) * skipdt r) irec) else wave (delay r + (j - 1) * skipdt r) irec.
Proof.
  intros Hj.
  assert (G : forall l acc, (forall it, In it l -> is_recorded r it = true -> slot r it <> j) ->
     fold_left (fun acc it => if is_recorded r it && (slot r it =? j) then (if accumulate then add acc (wave it irec) else wave it irec) else acc) l acc = acc).
  { induction l as [|x l IH]; intros acc Hl; [reflexivity|]. cbn [fold_left]. destruct (is_recorded r x) eqn:E; cbn [andb].
    - rewrite (proj2 (Z.eqb_neq _ _) (Hl x (or_introl eq_refl) E)). apply IH. intros; apply Hl; [now right|assumption].
    - apply IH. intros; apply Hl; [now right|assumption]. }
  unfold heard. destruct (Z.eqb_spec j 0) as [->|N].
  - apply G. intros it _ Hr. apply recorded_iff in Hr as (k & Hk & ->). rewrite slot_at; lia.
  - set (e := delay r + (j - 1) * skipdt r). assert (He : e < mod_nt r) by (apply in_time; lia).
    assert (He0 : 0 <= e) by (unfold e; nia).
    rewrite (range_split 0 e) by lia. rewrite (range_split e (e + 1)) by lia. rewrite !fold_left_app.
    assert (R : range e (e + 1) = [e]). { rewrite range_snoc, range_nil by lia. reflexivity. }
    rewrite R. cbn [fold_left]. rewrite (proj2 (recorded_iff e)) by (exists (j - 1); split; [lia|reflexivity]).
    replace (slot r e) with j by (unfold e; rewrite slot_at; lia). rewrite Z.eqb_refl. cbn [andb].
    rewrite (G (range 0 e)), (G (range (e + 1) (mod_nt r))); [reflexivity|..];
      intros it Hit Hr; apply in_range in Hit; apply recorded_iff in Hr as (k & Hk & ->); rewrite slot_at by lia; unfold e in Hit; intros E;
      assert (k = j - 1) by lia; subst k; lia.
Qed.

(** a shot that fits *)
Lemma shot_fits init wave : 0 < rec_n r -> last_sample < rec_nt r ->
  outside (shot add accumulate r init wave) = false /\
  written (shot add accumulate r init wave) = [mk_outfile 0 (map (fun irec => map (fun j =>
     let i := init (irec * rec_nt r + j) in
     if j =? 0 then i else if accumulate then add i (wave (delay r + (j - 1) * skipdt r) irec) else wave (delay r + (j - 1) * skipdt r) irec)
     (range 0 (last_sample + 1))) (range 0 (rec_n r)))] /\
  (forall irec, 0 <= irec < rec_n r -> samples (shot add accumulate r init wave) (irec * rec_nt r) = init (irec * rec_nt r)).
Proof.
  intros Hn HL. pose proof last_sample_pos as L1.
  assert (Q : quiet r (it1 r)). { rewrite it1_nt. apply quiet_iff; [lia|]. intros k Hk E. apply in_time in E; lia. }
  pose proof (shot_quiet add accumulate r Hnt init wave ltac:(rewrite it1_nt; lia) Hn Q) as G. rewrite it1_nt, last_slot_eq in G.
  destruct G as (G1 & _ & G3 & G4). conjs; [exact G1| |].
  - rewrite G3. do 2 f_equal. apply map_ext. intros irec. apply map_ext_in. intros j Hj. apply in_range in Hj. apply heard_at. lia.
  - intros irec Hi. specialize (G4 irec 0 Hi ltac:(lia)). rewrite heard_at in G4 by lia. cbn [Z.eqb] in G4. rewrite Z.add_0_r in G4. exact G4.
Qed.

Lemma shot_overflows init wave : 0 < rec_n r -> rec_nt r <= last_sample -> outside (shot add accumulate r init wave) = true.
Proof.
  intros Hn HL. unfold shot. apply write_mono. cbn [outside].
  set (e := delay r + (rec_nt r - 1) * skipdt r). assert (He : e < mod_nt r) by (apply in_time; lia).
  assert (He0 : 0 <= e) by (unfold e; nia).
  rewrite it1_nt, (range_split 0 e), (range_split e (e + 1)) by lia. rewrite !fold_left_app.
  assert (R : range e (e + 1) = [e]). { rewrite range_snoc, range_nil by lia. reflexivity. }
  rewrite R. cbn [fold_left]. apply steps_mono.
  assert (Q : quiet r e). { apply quiet_iff; [lia|]. intros k Hk E. unfold e in E. nia. }
  destruct (steps_quiet add accumulate r Hnt init wave e He0 Q) as (_ & _ & Hf & _ & _).
  change (fold_left _ (range 0 e) _) with (steps_upto add accumulate r init wave e). set (s := steps_upto add accumulate r init wave e) in *.
  unfold record_step. rewrite (proj2 (recorded_iff e)) by (exists (rec_nt r - 1); split; [lia|reflexivity]). cbv zeta. rewrite Hf, slot_number.
  replace (slot r e) with (rec_nt r) by (unfold e; rewrite slot_at; lia).
  assert (G : forall s1, outside (store_samples add accumulate r s1 (rec_nt r) (wave e)) = true).
  { intros s1. unfold store_samples. replace (range 0 (rec_n r)) with (range 0 (rec_n r - 1) ++ [rec_n r - 1]).
    - rewrite fold_left_app. cbn [fold_left]. replace ((rec_n r - 1) * rec_nt r + rec_nt r <? rec_n r * rec_nt r) with false by (symmetry; apply Z.ltb_ge; nia).
      rewrite andb_false_r. reflexivity.
    - rewrite <- range_snoc by lia. f_equal. lia. }
  destruct (_ && _); [apply write_mono; cbn [outside]|]; apply G.
Qed.
End NoShift.

Lemma default_rec_nt_eq nt delay skipdt : 0 < skipdt -> delay <= nt -> default_rec_nt nt delay skipdt = (nt - delay) / skipdt + 1.
Proof.
  intros Hs Hd. unfold default_rec_nt. set (a := nt - delay). assert (0 <= a) by lia. clearbody a. clear nt delay Hd.
  assert (E : - ((- (100 * a + 1)) / (100 * skipdt)) = a / skipdt + 1).
  { pose proof (Z.div_mod a skipdt ltac:(lia)). pose proof (Z.mod_pos_bound a skipdt Hs).
    assert ((- (100 * a + 1)) / (100 * skipdt) = - (a / skipdt) - 1); [|lia]. symmetry. apply (Z.div_unique _ _ _ (100 * (skipdt - a mod skipdt) - 1)); nia. }
  rewrite E. apply Z.min_r. set (b := 100 * skipdt) in *.
  assert (a / skipdt <= (2 * (100 * a + 1) + b) / (2 * b)); [|lia].
  apply Z.div_le_lower_bound; [lia|]. pose proof (Z.mul_div_le a skipdt Hs). unfold b. nia.
Qed.
