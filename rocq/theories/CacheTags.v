(** The tags of the cache: every block is in at most one line, and lookup finds it. *)
From Coq Require Import ZArith List Bool Arith Lia ZifyNat.
From Verif Require Import ListAux Bits Bitstream BitstreamProofs ZfpXform ZfpArray ZfpApi ZfpCache ArrayProofs.
Import ListNotations.
Local Open Scope Z_scope.

(** ** Sizes *)
Lemma land_succ_zero x : 0 <= x -> Z.land x (x + 1) = 0 -> exists k, 0 <= k /\ x + 1 = 2 ^ k.
Proof.
  intros Hx E. exists (Z.log2 (x + 1)). split; [apply Z.log2_nonneg|].
  pose proof (Z.log2_spec (x + 1) ltac:(lia)) as [L1 L2]. set (k := Z.log2 (x + 1)) in *.
  destruct (Z.eq_dec (x + 1) (2 ^ k)) as [|N]; [assumption|exfalso].
  assert (K0 : 0 <= k) by apply Z.log2_nonneg.
  assert (T : forall y, 2 ^ k <= y < 2 ^ (Z.succ k) -> Z.testbit y k = true).
  { intros y Y. rewrite Z.testbit_true by exact K0. rewrite Z.pow_succ_r in Y by exact K0. pose proof (Z.pow_pos_nonneg 2 k ltac:(lia) K0).
    replace (y / 2 ^ k) with 1; [reflexivity|]. apply Z.div_unique with (y - 2 ^ k); lia. }
  assert (F : Z.testbit (Z.land x (x + 1)) k = true) by (rewrite Z.land_spec, !T by lia; reflexivity).
  rewrite E, Z.bits_0 in F. discriminate.
Qed.

Lemma fill_bit x j : 0 <= x -> 0 <= j -> (forall t, 0 <= t < j -> Z.testbit x t = true) -> Z.testbit x j = false -> Z.testbit (x + 1) j = true.
Proof.
  intros Hx Hj H F.
  assert (M : x mod 2 ^ j = 2 ^ j - 1).
  { replace (2 ^ j - 1) with (Z.ones j) by (rewrite Z.ones_equiv; lia). rewrite <- Z.land_ones by exact Hj. apply Z.bits_inj'. intros t Ht. rewrite Z.land_spec.
    destruct (Z.lt_ge_cases t j). - rewrite H, Z.ones_spec_low by lia. reflexivity. - rewrite Z.ones_spec_high by lia. apply andb_false_r. }
  rewrite Z.testbit_false in F by exact Hj. rewrite Z.testbit_true by exact Hj.
  pose proof (Z.pow_pos_nonneg 2 j ltac:(lia) Hj). pose proof (Z.div_mod x (2 ^ j) ltac:(lia)) as DM.
  replace ((x + 1) / 2 ^ j) with (x / 2 ^ j + 1); [rewrite Z.add_mod, F by lia; reflexivity|].
  apply Z.div_unique with 0; lia.
Qed.

Lemma lor_lt x y K : 0 <= x < 2 ^ K -> 0 <= y < 2 ^ K -> 0 <= K -> Z.lor x y < 2 ^ K.
Proof.
  intros Hx Hy HK. assert (x = x mod 2 ^ K) as Ex by (symmetry; apply Z.mod_small; lia). assert (y = y mod 2 ^ K) as Ey by (symmetry; apply Z.mod_small; lia).
  rewrite Ex, Ey, <- !Z.land_ones, <- Z.land_lor_distr_l, Z.land_ones by exact HK. apply Z.mod_pos_bound. apply Z.pow_pos_nonneg; lia.
Qed.
Lemma lor_ge x y : 0 <= x -> 0 <= y -> x <= Z.lor x y.
Proof.
  intros Hx Hy. assert (E : x + Z.ldiff y x = Z.lor x y).
  { rewrite Z.add_nocarry_lxor.
    - apply Z.bits_inj'. intros n Hn. rewrite Z.lxor_spec, Z.ldiff_spec, Z.lor_spec. destruct (Z.testbit x n), (Z.testbit y n); reflexivity.
    - apply Z.bits_inj'. intros n Hn. rewrite Z.land_spec, Z.ldiff_spec, Z.bits_0. destruct (Z.testbit x n), (Z.testbit y n); reflexivity. }
  assert (0 <= Z.ldiff y x) by (apply Z.ldiff_nonneg; auto). lia.
Qed.

Lemma mask_loop_spec K fuel : forall j x, 0 <= K <= 31 -> 0 <= x < 2 ^ K -> 0 <= j -> j + Z.of_nat fuel = 32 ->
  (forall t, 0 <= t < j -> Z.testbit x t = true) -> exists k, 0 <= k <= K /\ mask_loop fuel x = 2 ^ k - 1 /\ x <= mask_loop fuel x.
Proof.
  induction fuel as [|f IH]; intros j x HK Hx Hj HF HT.
  - exfalso. specialize (HT 31 ltac:(lia)). rewrite Z.testbit_true in HT by lia. assert (2 ^ K <= 2 ^ 31) by (apply Z.pow_le_mono_r; lia).
    rewrite Z.div_small in HT by lia. discriminate.
  - cbn [mask_loop]. assert (2 ^ K <= 2 ^ 31) by (apply Z.pow_le_mono_r; lia).
    assert (EU : uint (x + 1) = x + 1) by (unfold uint; apply Z.mod_small; lia). rewrite EU.
    destruct (Z.eqb_spec (Z.land x (x + 1)) 0) as [E|E].
    + destruct (land_succ_zero x ltac:(lia) E) as (k & K0 & EK). exists k. split; [|lia]. split; [exact K0|].
      destruct (Z.le_gt_cases k K) as [|G]; [assumption|exfalso]. assert (2 ^ (K + 1) <= 2 ^ k) by (apply Z.pow_le_mono_r; lia).
      rewrite Z.pow_add_r in * by lia. lia.
    + assert (NE : x + 1 <> 2 ^ K).
      { intros C. apply E. replace x with (Z.ones K) by (rewrite Z.ones_equiv; lia). rewrite Z.land_comm, Z.land_ones by lia.
        replace (Z.ones K + 1) with (2 ^ K) by (rewrite Z.ones_equiv; lia). apply Z.mod_same. lia. }
      destruct (IH (j + 1) (Z.lor x (x + 1))) as (k & A & B & C); [lia| |lia|lia| |].
      * split; [apply Z.lor_nonneg; lia|apply lor_lt; lia].
      * intros t Ht. rewrite Z.lor_spec. destruct (Z.eq_dec t j) as [->|]; [|rewrite HT by lia; reflexivity].
        destruct (Z.testbit x j) eqn:F; [reflexivity|]. rewrite (fill_bit x j) by (auto; lia). reflexivity.
      * exists k. split; [exact A|]. split; [exact B|]. pose proof (lor_ge x (x + 1) ltac:(lia) ltac:(lia)). lia.
Qed.

(** the number of lines is the smallest power of two that is at least minsize *)
Lemma cache_mask_spec n : 1 <= n <= 2 ^ 31 -> exists k, 0 <= k <= 31 /\ cache_mask n + 1 = 2 ^ k /\ n <= 2 ^ k < 2 * n.
Proof.
  intros Hn. unfold cache_mask. destruct (Z.eqb_spec n 0) as [|_]; [lia|].
  set (K := Z.log2_up n).
  assert (K31 : 0 <= K <= 31) by (unfold K; split; [apply Z.log2_up_nonneg|]; change 31 with (Z.log2_up (2 ^ 31)); apply Z.log2_up_le_mono; lia).
  assert (HK : n <= 2 ^ K /\ 2 ^ K < 2 * n).
  { destruct (Z.eq_dec n 1) as [->|]; [cbn; lia|]. pose proof (Z.log2_up_spec n ltac:(lia)) as [A B]. fold K in A, B. split; [lia|].
    assert (0 < K) by (apply Z.log2_up_pos; lia). replace K with (Z.succ (Z.pred K)) by lia. rewrite Z.pow_succ_r by lia. lia. }
  destruct (mask_loop_spec K 32 0 (n - 1)) as (k & A & B & C); [lia|lia|lia|lia|lia|].
  exists k. split; [lia|]. split; [lia|]. assert (2 ^ k <= 2 ^ K) by (apply Z.pow_le_mono_r; lia). lia.
Qed.

(** ** Tags *)
Definition tag_is (b : nat) (dirty : bool) : Z := 2 * (Z.of_nat b + 1) + Z.b2z dirty.

Lemma tag_is_index b w : tag_index (tag_is b w) = Z.of_nat b + 1.
Proof. unfold tag_index, tag_is. rewrite Z.shiftr_div_pow2 by lia. change (2 ^ 1) with 2. destruct w; cbn [Z.b2z]; lia. Qed.
Lemma tag_is_dirty b w : tag_dirty (tag_is b w) = w.
Proof. unfold tag_dirty, tag_is. rewrite Z.add_comm, Z.odd_add_mul_2. destruct w; reflexivity. Qed.
Lemma tag_is_used b w : tag_used (tag_is b w) = true.
Proof. unfold tag_used, tag_is. destruct (Z.eqb_spec (2 * (Z.of_nat b + 1) + Z.b2z w) 0); [destruct w; cbn [Z.b2z] in *; lia|reflexivity]. Qed.
Lemma tag_is_mark b w : tag_mark (tag_is b w) = tag_is b true.
Proof.
  unfold tag_mark, tag_is. apply Z.bits_inj'. intros n Hn. rewrite Z.lor_spec. destruct (Z.eq_dec n 0) as [->|].
  - rewrite !Z.bit0_odd, (Z.add_comm (2 * _) (Z.b2z true)), Z.odd_add_mul_2. cbn. apply orb_true_r.
  - replace n with (Z.succ (Z.pred n)) by lia. rewrite !Z.add_b2z_double_bit0 || idtac.
    assert (D : forall w, Z.testbit (2 * (Z.of_nat b + 1) + Z.b2z w) (Z.succ (Z.pred n)) = Z.testbit (Z.of_nat b + 1) (Z.pred n)).
    { intros [|]; cbn [Z.b2z]; [rewrite Z.testbit_odd_succ by lia|rewrite Z.add_0_r, Z.testbit_even_succ by lia]; reflexivity. }
    rewrite !D. change 1 with (2 * 0 + 1). rewrite Z.testbit_odd_succ, Z.bits_0 by lia. apply orb_false_r.
Qed.
Lemma make_tag_is b w : Z.of_nat b < 2 ^ 31 - 1 -> make_tag (Z.of_nat b + 1) w = tag_is b w.
Proof. intros H. unfold make_tag, uint, tag_is. apply Z.mod_small. destruct w; cbn [Z.b2z]; lia. Qed.

Section Tags.
Variables two_way fast_hash : bool.
Variable width : nat.  (* number of values in a line *)

Notation primary := ZfpCache.primary.
Notation secondary := (ZfpCache.secondary fast_hash).
Notation lookup := (ZfpCache.lookup two_way fast_hash).
Notation access := (ZfpCache.access two_way fast_hash).

Definition slots (c : cache) : nat := length (tags c).
(** the lines where block b may be *)
Definition home (c : cache) (b i : nat) : Prop := i = primary c (Z.of_nat b + 1) \/ two_way = true /\ i = secondary c (Z.of_nat b + 1).

Record cache_ok (n : nat) (c : cache) : Prop := {
  ok_mask : exists k, 0 <= k /\ mask c = 2 ^ k - 1;
  ok_tags : Z.of_nat (slots c) = mask c + 1;
  ok_lines : length (lines c) = slots c;
  ok_width : Forall (fun l => length l = width) (lines c);
  ok_tag : forall i, (i < slots c)%nat -> tag_at c i = 0 \/ exists b w, (b < n)%nat /\ tag_at c i = tag_is b w /\ home c b i;
  ok_once : forall i j, (i < slots c)%nat -> (j < slots c)%nat -> tag_index (tag_at c i) = tag_index (tag_at c j) -> tag_at c i <> 0 -> i = j }.

Lemma home_slot n c b i : cache_ok n c -> home c b i -> (i < slots c)%nat.
Proof.
  intros H [->|[_ ->]]; destruct (ok_mask _ _ H) as (k & K0 & EM); pose proof (ok_tags _ _ H) as ET;
    unfold ZfpCache.primary, ZfpCache.secondary; rewrite EM in *; replace (2 ^ k - 1) with (Z.ones k) by (rewrite Z.ones_equiv; lia);
    rewrite Z.land_ones by exact K0; pose proof (Z.pow_pos_nonneg 2 k ltac:(lia) K0).
  - pose proof (Z.mod_pos_bound (Z.of_nat b + 1) (2 ^ k) ltac:(lia)). lia.
  - pose proof (Z.mod_pos_bound (hash fast_hash (Z.of_nat b + 1)) (2 ^ k) ltac:(lia)). lia.
Qed.

(** block b is in line i, with dirty bit w *)
Definition holds (c : cache) (b i : nat) (w : bool) : Prop := (i < slots c)%nat /\ tag_at c i = tag_is b w.

Lemma holds_once n c b i j w v : cache_ok n c -> holds c b i w -> holds c b j v -> i = j /\ w = v.
Proof.
  intros H [I1 I2] [J1 J2]. assert (E : i = j).
  { apply (ok_once _ _ H); auto; [rewrite I2, J2, !tag_is_index; reflexivity|]. rewrite I2. intros Z0. pose proof (tag_is_used b w) as U. rewrite Z0 in U. discriminate. }
  split; [exact E|]. subst j. rewrite I2 in J2. apply (f_equal tag_dirty) in J2. rewrite !tag_is_dirty in J2. exact J2.
Qed.
Lemma index_holds n c b i : cache_ok n c -> (i < slots c)%nat -> tag_index (tag_at c i) = Z.of_nat b + 1 -> holds c b i (tag_dirty (tag_at c i)) /\ (b < n)%nat /\ home c b i.
Proof.
  intros H Hi E. destruct (ok_tag _ _ H i Hi) as [Z0|(b' & w & B1 & B2 & B3)].
  - rewrite Z0 in E. change (tag_index 0) with 0 in E. lia.
  - rewrite B2, tag_is_index in E. assert (b' = b) by lia. subst b'. rewrite B2, tag_is_dirty. split; [split; assumption|]. split; assumption.
Qed.
Lemma lookup_spec n c b : cache_ok n c ->
  match lookup c (Z.of_nat b + 1) with
  | Some i => (b < n)%nat /\ holds c b i (tag_dirty (tag_at c i))
  | None => forall i w, ~ holds c b i w
  end.
Proof.
  intros H. unfold ZfpCache.lookup.
  assert (P : (primary c (Z.of_nat b + 1) < slots c)%nat) by (apply (home_slot n c b); [exact H|left; reflexivity]).
  destruct (Z.eqb_spec (tag_index (tag_at c (primary c (Z.of_nat b + 1)))) (Z.of_nat b + 1)) as [E|E].
  - destruct (index_holds n c b _ H P E) as (A & B & _). auto.
  - destruct two_way eqn:TW; cbn [andb].
    + assert (Q : (secondary c (Z.of_nat b + 1) < slots c)%nat) by (apply (home_slot n c b); [exact H|right; auto]).
      destruct (Z.eqb_spec (tag_index (tag_at c (secondary c (Z.of_nat b + 1)))) (Z.of_nat b + 1)) as [E2|E2].
      * destruct (index_holds n c b _ H Q E2) as (A & B & _). auto.
      * intros i w [I1 I2]. destruct (index_holds n c b i H I1) as (_ & _ & [->|[_ ->]]); [rewrite I2; apply tag_is_index| |].
        -- apply E. rewrite I2. apply tag_is_index.
        -- apply E2. rewrite I2. apply tag_is_index.
    + intros i w [I1 I2]. destruct (index_holds n c b i H I1) as (_ & _ & [->|[C _]]); [rewrite I2; apply tag_is_index| |congruence].
      apply E. rewrite I2. apply tag_is_index.
Qed.
Lemma lookup_holds n c b i w : cache_ok n c -> holds c b i w -> lookup c (Z.of_nat b + 1) = Some i.
Proof.
  intros H A. pose proof (lookup_spec n c b H) as L. destruct (lookup c (Z.of_nat b + 1)) as [j|].
  - destruct L as [_ L]. destruct (holds_once n c b _ _ _ _ H A L) as [-> _]. reflexivity.
  - exfalso. exact (L i w A).
Qed.

Lemma tag_at_set c i t j : (i < slots c)%nat -> tag_at (set_tag c i t) j = if (j =? i)%nat then t else tag_at c j.
Proof.
  intros Hi. unfold tag_at, set_tag. cbn [tags]. destruct (Nat.eqb_spec j i) as [->|N]; [apply upd_nth_same; exact Hi|apply upd_nth_other; auto].
Qed.
Lemma slots_set c i t : slots (set_tag c i t) = slots c.
Proof. unfold slots, set_tag. cbn [tags]. apply upd_length'. Qed.

Lemma home_set c i t b j : home (set_tag c i t) b j <-> home c b j.
Proof. reflexivity. Qed.

(** giving line i to block b *)
Lemma ok_set n c b i w : cache_ok n c -> (b < n)%nat -> home c b i -> (forall j v, holds c b j v -> j = i) -> cache_ok n (set_tag c i (tag_is b w)).
Proof.
  intros H Hb Hh HN. pose proof (home_slot n c b i H Hh) as Hi. constructor.
  - apply (ok_mask _ _ H).
  - rewrite slots_set. apply (ok_tags _ _ H).
  - rewrite slots_set. apply (ok_lines _ _ H).
  - apply (ok_width _ _ H).
  - intros j Hj. rewrite slots_set in Hj. rewrite tag_at_set by exact Hi. destruct (Nat.eqb_spec j i) as [->|N].
    + right. exists b, w. split; [exact Hb|]. split; [reflexivity|]. exact Hh.
    + destruct (ok_tag _ _ H j Hj) as [|(b' & v & A & B & C)]; [auto|right]. exists b', v. auto.
  - intros j k Hj Hk. rewrite slots_set in Hj, Hk. rewrite !tag_at_set by exact Hi.
    destruct (Nat.eqb_spec j i) as [->|N]; destruct (Nat.eqb_spec k i) as [->|M]; auto.
    + rewrite tag_is_index. intros E _. symmetry. destruct (index_holds n c b k H Hk) as (A & _); [auto|]. exact (HN _ _ A).
    + rewrite tag_is_index. intros E _. destruct (index_holds n c b j H Hj) as (A & _); [auto|]. exact (HN _ _ A).
    + apply (ok_once _ _ H); assumption.
Qed.

Lemma ok_unset n c i : cache_ok n c -> (i < slots c)%nat -> cache_ok n (set_tag c i 0).
Proof.
  intros H Hi. constructor.
  - apply (ok_mask _ _ H).
  - rewrite slots_set. apply (ok_tags _ _ H).
  - rewrite slots_set. apply (ok_lines _ _ H).
  - apply (ok_width _ _ H).
  - intros j Hj. rewrite slots_set in Hj. rewrite tag_at_set by exact Hi. destruct (Nat.eqb_spec j i) as [->|N]; [left; reflexivity|].
    destruct (ok_tag _ _ H j Hj) as [|(b' & v & A & B & C)]; [auto|right]. exists b', v. auto.
  - intros j k Hj Hk. rewrite slots_set in Hj, Hk. rewrite !tag_at_set by exact Hi.
    destruct (Nat.eqb_spec j i) as [->|N]; destruct (Nat.eqb_spec k i) as [->|M]; auto; try congruence.
    + intros E F. exfalso. change (tag_index 0) with 0 in E. destruct (ok_tag _ _ H j Hj) as [|(b' & v & A & B & C)]; [congruence|]. rewrite B, tag_is_index in E. lia.
    + apply (ok_once _ _ H); assumption.
Qed.

Lemma ok_set_line n c i l : cache_ok n c -> length l = width -> cache_ok n (set_line c i l).
Proof.
  intros H HL. constructor.
  - apply (ok_mask _ _ H).
  - apply (ok_tags _ _ H).
  - unfold set_line, slots. cbn [lines tags]. rewrite upd_length'. apply (ok_lines _ _ H).
  - unfold set_line. cbn [lines]. apply upd_Forall; [apply (ok_width _ _ H)|exact HL].
  - apply (ok_tag _ _ H).
  - apply (ok_once _ _ H).
Qed.
Lemma line_length n c i : cache_ok n c -> (i < slots c)%nat -> length (line_at c i) = width.
Proof.
  intros H Hi. pose proof (ok_width _ _ H) as F. rewrite Forall_forall in F. apply F. unfold line_at. apply nth_In. rewrite (ok_lines _ _ H). exact Hi.
Qed.
Lemma line_at_set c i l j n : cache_ok n c -> (i < slots c)%nat -> line_at (set_line c i l) j = if (j =? i)%nat then l else line_at c j.
Proof.
  intros H Hi. unfold line_at, set_line. cbn [lines]. destruct (Nat.eqb_spec j i) as [->|N]; [apply upd_nth_same; rewrite (ok_lines _ _ H); exact Hi|apply upd_nth_other; auto].
Qed.

(** ** Access *)
Inductive accessed (c : cache) (b : nat) (write : bool) : Z * nat * cache -> Prop :=
  | hit i w : holds c b i w -> accessed c b write (tag_is b (w || write), i, set_tag c i (tag_is b (w || write)))
  | miss i : home c b i -> (forall j v, ~ holds c b j v) -> accessed c b write (tag_at c i, i, set_tag c i (tag_is b write)).

Lemma set_tag_same c i : set_tag c i (tag_at c i) = c.
Proof.
  unfold set_tag, tag_at. destruct c as [m t l]. cbn. f_equal. revert i. induction t as [|x t IH]; intros [|i]; cbn; try reflexivity. f_equal. apply IH.
Qed.
Lemma access_spec n c b write : cache_ok n c -> (b < n)%nat -> Z.of_nat n <= 2 ^ 31 - 1 -> accessed c b write (access c (Z.of_nat b + 1) write).
Proof.
  intros H Hb Hn. unfold ZfpCache.access.
  assert (HIT : forall i, (i < slots c)%nat -> tag_index (tag_at c i) = Z.of_nat b + 1 ->
    accessed c b write (let c := if write then set_tag c i (tag_mark (tag_at c i)) else c in (tag_at c i, i, c))).
  { intros i Hi E. destruct (index_holds n c b i H Hi E) as (A & _). destruct A as [_ A]. set (w := tag_dirty (tag_at c i)) in A.
    pose proof (hit c b write i w (Logic.conj Hi A)) as X. cbv zeta. destruct write.
    - rewrite orb_true_r in X. rewrite A, tag_is_mark. rewrite tag_at_set, Nat.eqb_refl by exact Hi. exact X.
    - rewrite orb_false_r in X. rewrite <- A, set_tag_same in X. exact X. }
  assert (MISS : forall i, home c b i -> (forall j v, ~ holds c b j v) -> accessed c b write (tag_at c i, i, set_tag c i (make_tag (Z.of_nat b + 1) write))).
  { intros i A B. rewrite make_tag_is by lia. apply miss; assumption. }
  pose proof (lookup_spec n c b H) as L. unfold ZfpCache.lookup in L.
  assert (P : (primary c (Z.of_nat b + 1) < slots c)%nat) by (apply (home_slot n c b); [exact H|left; reflexivity]).
  destruct (Z.eqb_spec (tag_index (tag_at c (primary c (Z.of_nat b + 1)))) (Z.of_nat b + 1)) as [E|E]; [apply HIT; assumption|].
  destruct two_way eqn:TW; cbn [andb] in L.
  - assert (Q : (secondary c (Z.of_nat b + 1) < slots c)%nat) by (apply (home_slot n c b); [exact H|right; auto]).
    destruct (Z.eqb_spec (tag_index (tag_at c (secondary c (Z.of_nat b + 1)))) (Z.of_nat b + 1)) as [E2|E2]; [apply HIT; assumption|].
    apply MISS; [|exact L]. destruct (_ && _); [left; reflexivity|right; auto].
  - apply MISS; [left; reflexivity|exact L].
Qed.

(** ** Empty caches *)
Lemma cleared_tag c i : tag_at (cache_clear c) i = 0.
Proof. unfold tag_at, cache_clear. cbn [tags]. revert i. induction (tags c) as [|t l IH]; intros [|i]; cbn; auto. Qed.
Lemma empty_holds c b i w : (forall j, tag_at c j = 0) -> ~ holds c b i w.
Proof. intros E [_ A]. rewrite E in A. pose proof (tag_is_used b w) as U. rewrite <- A in U. discriminate. Qed.
Lemma clear_ok n n' c : cache_ok n c -> cache_ok n' (cache_clear c).
Proof.
  intros H. constructor.
  - apply (ok_mask _ _ H).
  - unfold slots, cache_clear. cbn [tags mask]. rewrite map_length. apply (ok_tags _ _ H).
  - unfold slots, cache_clear. cbn [tags lines]. rewrite map_length. apply (ok_lines _ _ H).
  - apply (ok_width _ _ H).
  - intros i _. left. apply cleared_tag.
  - intros i j _ _ _ E. elim E. apply cleared_tag.
Qed.
Lemma resize_ok n junk k : length junk = width -> 1 <= k <= 2 ^ 31 -> cache_ok n (cache_resize junk k).
Proof.
  intros HJ Hk. destruct (cache_mask_spec k Hk) as (e & E1 & E2 & E3). unfold cache_resize.
  set (c0 := mk_cache (cache_mask k) (repeat 1 (Z.to_nat (cache_mask k + 1))) (repeat junk (Z.to_nat (cache_mask k + 1)))).
  constructor.
  - exists e. change (mask (cache_clear c0)) with (cache_mask k). lia.
  - unfold slots, cache_clear, c0. cbn [tags mask]. rewrite map_length, repeat_length. lia.
  - unfold slots, cache_clear, c0. cbn [tags lines]. rewrite map_length, !repeat_length. reflexivity.
  - unfold cache_clear, c0. cbn [lines]. apply Forall_forall. intros x X. apply repeat_spec in X. congruence.
  - intros i _. left. apply cleared_tag.
  - intros i j _ _ _ E. elim E. apply cleared_tag.
Qed.
End Tags.
