(** The decoders read the code: refinement of dec_ints and dec_many_ints to [dcode]. *)
From Coq Require Import ZArith Lia List Bool Arith.
From Verif Require Import ListAux Bits Bitstream BitstreamProofs BitstreamProofs2 StreamSpec StreamRuns.
From Verif Require Import EmbedSpec ZfpCodec ZfpCodecProofs ZfpCodecProofs2.
Import ListNotations.
Local Open Scope Z_scope.

(** ** [dtail] *)
Lemma dtail_budget r : forall i b inp, (snd (fst (dtail r i b inp)) <= b)%nat.
Proof.
  induction r as [|r IH]; intros i b inp; [cbn; lia|]. cbn [dtail].
  destruct i.
  - destruct ((r =? 0) || (b =? 0))%nat.
    + specialize (IH false b inp). destruct (dtail r false b inp) as [[l b'] i']. cbn in *. auto.
    + specialize (IH (negb (hd false inp)) (b - 1)%nat (tl inp)).
      destruct (dtail r _ _ _) as [[l b'] i']. cbn in *. lia.
  - destruct b as [|b]; [cbn; lia|]. destruct (hd false inp); [|cbn; lia].
    destruct ((r =? 0) || (b =? 0))%nat.
    + specialize (IH false b (tl inp)). destruct (dtail r false b (tl inp)) as [[l b'] i']. cbn in *. lia.
    + specialize (IH (negb (hd false (tl inp))) (b - 1)%nat (tl (tl inp))).
      destruct (dtail r _ _ _) as [[l b'] i']. cbn in *. lia.
Qed.

Lemma dtail_len r : forall i b inp, (length (fst (fst (dtail r i b inp))) <= r)%nat.
Proof.
  induction r as [|r IH]; intros i b inp; [cbn; lia|]. cbn [dtail].
  destruct i.
  - destruct ((r =? 0) || (b =? 0))%nat.
    + specialize (IH false b inp). destruct (dtail r false b inp) as [[l b'] i']. cbn in *. lia.
    + specialize (IH (negb (hd false inp)) (b - 1)%nat (tl inp)).
      destruct (dtail r _ _ _) as [[l b'] i']. cbn in *. lia.
  - destruct b as [|b]; [cbn; lia|]. destruct (hd false inp); [|cbn; lia].
    destruct ((r =? 0) || (b =? 0))%nat.
    + specialize (IH false b (tl inp)). destruct (dtail r false b (tl inp)) as [[l b'] i']. cbn in *. lia.
    + specialize (IH (negb (hd false (tl inp))) (b - 1)%nat (tl (tl inp))).
      destruct (dtail r _ _ _) as [[l b'] i']. cbn in *. lia.
Qed.

(** entering a run *)
Lemma dtail_enter r b inp : dtail (S r) false (S b) (true :: inp) = dtail (S r) true b inp.
Proof. reflexivity. Qed.

Lemma skipn_step {A} (d : A) M pos : (pos < length M)%nat -> skipn pos M = nth pos M d :: skipn (S pos) M.
Proof.
  revert pos; induction M; intros pos H; [cbn in H; lia|].
  destruct pos; [reflexivity|]. cbn [skipn nth]. apply IHM. cbn in H; lia.
Qed.

Section W.
Variable W : nat.
Hypothesis HW : (1 <= W <= 64)%nat.
Notation rat := (rat W).

Lemma dec_inner_spec m : forall r fuel size n b s pos,
  (r < fuel)%nat -> (n + S r = size)%nat -> rat m pos s ->
  (pos + (b - snd (fst (dtail (S r) true b (skipn pos (membits W m))))) <= W * length m)%nat ->
  let '(n1, b1, s1) := dec_inner W fuel size n b s in
  (n <= n1 < size)%nat /\ (b1 <= b)%nat /\ rat m (pos + (b - b1)) s1 /\
  dtail (S r) true b (skipn pos (membits W m)) =
  let '(l, b', i') := dtail (size - n1 - 1) false b1 (skipn (pos + (b - b1)) (membits W m)) in
  (repeat false (n1 - n) ++ true :: l, b', i').
Proof.
  induction r as [|r IH]; intros fuel size n b s pos Hfu Hn Hr Hc; (destruct fuel as [|fuel]; [lia|]).
  - cbn [dec_inner]. assert (n <? size - 1 = false)%nat as -> by (apply Nat.ltb_ge; lia). cbn [andb].
    rewrite Nat.sub_diag, Nat.add_0_r. conjs; auto; try lia.
    replace (size - n - 1)%nat with 0%nat by lia. rewrite Nat.sub_diag. reflexivity.
  - cbn [dec_inner]. assert (n <? size - 1 = true)%nat as -> by (apply Nat.ltb_lt; lia).
    destruct (Nat.eqb_spec b 0) as [->|Hb].
    + cbn [andb negb]. rewrite Nat.sub_diag, Nat.add_0_r. conjs; auto; try lia.
      rewrite Nat.sub_diag. replace (size - n - 1)%nat with (S r) by lia. reflexivity.
    + cbn [andb negb].
      assert (pos < W * length m)%nat as Hp.
      { revert Hc. cbn [dtail]. assert (S r =? 0 = false)%nat as -> by auto.
        assert (b =? 0 = false)%nat as -> by (apply Nat.eqb_neq; auto). cbn [orb].
        set (inp := skipn pos (membits W m)).
        pose proof (dtail_budget (S r) (negb (hd false inp)) (b - 1) (tl inp)).
        cbn [dtail] in H. destruct (let '(go, b0, inp0) := _ in _) as [[l b'] i']. cbn [fst snd] in *. lia. }
      pose proof (rat_read_bit W HW m pos s Hr Hp) as R.
      destruct (stream_read_bit W s) as [v s1]. destruct R as [-> R].
      rewrite <- membits_length in Hp by auto.
      rewrite (skipn_step false _ _ Hp) in *. set (v := nth pos (membits W m) false) in *.
      assert (forall inp, dtail (S (S r)) true b (v :: inp) =
        let '(l, b', i') := dtail (S r) (negb v) (b - 1) inp in (v :: l, b', i')) as E.
      { intros inp. cbn [dtail]. assert (S r =? 0 = false)%nat as -> by auto.
        assert (b =? 0 = false)%nat as -> by (apply Nat.eqb_neq; auto). reflexivity. }
      rewrite E in *. destruct v; cbn [negb] in *.
      * replace (b - (b - 1))%nat with 1%nat by lia. replace (pos + 1)%nat with (S pos) by lia.
        conjs; auto; try lia. replace (size - n - 1)%nat with (S r) by lia.
        rewrite Nat.sub_diag. reflexivity.
      * specialize (IH fuel size (S n) (b - 1)%nat s1 (S pos) ltac:(lia) ltac:(lia) R).
        pose proof (dtail_budget (S r) true (b - 1) (skipn (S pos) (membits W m))) as Hd.
        destruct (dtail (S r) true (b - 1) (skipn (S pos) (membits W m))) as [[l b'] i'] eqn:Ed.
        cbn [fst snd] in *. specialize (IH ltac:(lia)).
        destruct (dec_inner W fuel size (S n) (b - 1) s1) as [[n1 b1] s2].
        destruct IH as (I1 & I2 & I3 & I4).
        replace (S pos + (b - 1 - b1))%nat with (pos + (b - b1))%nat in * by lia.
        conjs; auto; try lia.
        destruct (dtail (size - n1 - 1) false b1 (skipn (pos + (b - b1)) (membits W m))) as [[l2 b2] i2].
        inversion I4; subst. replace (n1 - n)%nat with (S (n1 - S n)) by lia. reflexivity.
Qed.

Lemma bitsz_repeat_false k l : bitsz (repeat false k ++ true :: l) = 2 ^ Z.of_nat k + 2 ^ Z.of_nat (S k) * bitsz l.
Proof.
  induction k; cbn [repeat app bitsz].
  - cbn [Z.b2z Z.of_nat]. change (2 ^ Z.of_nat 1) with 2. change (2 ^ 0) with 1. lia.
  - rewrite IHk. cbn [Z.b2z]. rewrite !pow2_S. lia.
Qed.

Lemma dec_outer_spec m : forall fuel r size n b x s pos,
  (r < fuel)%nat -> (n + r = size)%nat -> (size <= 64)%nat -> 0 <= x < 2 ^ Z.of_nat n -> rat m pos s ->
  let '(l, b', i') := dtail r false b (skipn pos (membits W m)) in
  (pos + (b - b') <= W * length m)%nat ->
  let '(n1, b1, x1, s1) := dec_outer W fuel size n b x s in
  n1 = (n + length l)%nat /\ b1 = b' /\ x1 = x + 2 ^ Z.of_nat n * bitsz l /\
  rat m (pos + (b - b')) s1 /\ i' = skipn (pos + (b - b')) (membits W m).
Proof.
  induction fuel as [|fuel IH]; intros r size n b x s pos Hfu Hn Hs Hx Hr; [lia|].
  destruct r as [|r].
  - cbn [dtail dec_outer]. assert (n <? size = false)%nat as -> by (apply Nat.ltb_ge; lia). intros Hc.
    cbn [andb length bitsz]. rewrite Nat.sub_diag, !Nat.add_0_r in *. conjs; auto. lia.
  - cbn [dec_outer]. assert (n <? size = true)%nat as -> by (apply Nat.ltb_lt; lia).
    destruct b as [|b].
    + cbn [dtail Nat.eqb negb andb length bitsz Nat.sub]. intros _. rewrite !Nat.add_0_r. conjs; auto. lia.
    + cbn [Nat.eqb negb andb]. rewrite Nat.sub_succ, Nat.sub_0_r.
      destruct (dtail (S r) false (S b) (skipn pos (membits W m))) as [[l b'] i'] eqn:Ed. intros Hc.
      assert (pos < W * length m)%nat as Hp.
      { enough (b' <= b)%nat by lia. revert Ed. cbn [dtail].
        set (inp := skipn pos (membits W m)).
        destruct (hd false inp); [|intros [= _ <- _]; lia].
        pose proof (dtail_budget r (negb (hd false (tl inp))) (b - 1) (tl (tl inp))) as D1.
        pose proof (dtail_budget r false b (tl inp)) as D2.
        destruct ((r =? 0) || (b =? 0))%nat.
        - destruct (dtail r false b (tl inp)) as [[? ?] ?]. cbn in D2. intros [= _ <- _]. lia.
        - destruct (dtail r _ (b - 1) _) as [[? ?] ?]. cbn in D1. intros [= _ <- _]. lia. }
      pose proof (rat_read_bit W HW m pos s Hr Hp) as R.
      destruct (stream_read_bit W s) as [v s1]. destruct R as [-> R].
      pose proof Hp as Hp'. rewrite <- membits_length in Hp' by auto.
      rewrite (skipn_step false _ _ Hp') in Ed. set (v := nth pos (membits W m) false) in *.
      destruct v.
      * rewrite dtail_enter in Ed.
        pose proof (dec_inner_spec m r (S size) size n b s1 (S pos) ltac:(lia) Hn R) as Q.
        rewrite Ed in Q. cbn [fst snd] in Q.
        pose proof (dtail_budget (S r) true b (skipn (S pos) (membits W m))) as Hb'. rewrite Ed in Hb'. cbn [fst snd] in Hb'.
        specialize (Q ltac:(lia)).
        destruct (dec_inner W (S size) size n b s1) as [[n1 b1] s2].
        destruct Q as (Q1 & Q2 & Q3 & Q4).
        assert (n1 <? 64 = true)%nat as Hlt by (apply Nat.ltb_lt; lia).
        rewrite Hlt. assert (chk true s2 = s2) as -> by (destruct s2; unfold chk; cbn; rewrite orb_false_r; reflexivity).
        assert (0 <= x + Z.shiftl 1 (Z.of_nat n1) < 2 ^ Z.of_nat (S n1)) as Hx1.
        { rewrite Z.shiftl_mul_pow2, Z.mul_1_l, pow2_S by lia.
          assert (2 ^ Z.of_nat n <= 2 ^ Z.of_nat n1) by (apply Z.pow_le_mono_r; lia). lia. }
        assert (u64 (x + Z.shiftl 1 (Z.of_nat n1)) = x + 2 ^ Z.of_nat n1) as ->.
        { unfold u64. rewrite Z.mod_small; [rewrite Z.shiftl_mul_pow2 by lia; lia|].
          split; [lia|]. eapply Z.lt_le_trans; [apply Hx1|]. apply Z.pow_le_mono_r; lia. }
        rewrite Z.shiftl_mul_pow2, Z.mul_1_l in Hx1 by lia.
        specialize (IH (size - n1 - 1)%nat size (S n1) b1 _ s2 (S pos + (b - b1))%nat ltac:(lia) ltac:(lia) Hs Hx1 Q3).
        destruct (dtail (size - n1 - 1) false b1 (skipn (S pos + (b - b1)) (membits W m))) as [[l2 b2] i2] eqn:E2.
        pose proof (dtail_budget (size - n1 - 1) false b1 (skipn (S pos + (b - b1)) (membits W m))) as Hb2.
        rewrite E2 in Hb2. cbn [fst snd] in Hb2.
        inversion Q4; subst l b' i'; clear Q4. specialize (IH ltac:(lia)).
        destruct (dec_outer W fuel size (S n1) b1 _ s2) as [[[n3 b3] x3] s3].
        destruct IH as (K1 & K2 & K3 & K4 & K5).
        replace (S pos + (b - b1) + (b1 - b2))%nat with (pos + (S b - b2))%nat in * by lia.
        conjs; auto.
        -- rewrite app_length, repeat_length. cbn [length]. lia.
        -- rewrite K3, bitsz_repeat_false.
           replace (2 ^ Z.of_nat n1) with (2 ^ Z.of_nat n * 2 ^ Z.of_nat (n1 - n)) by (rewrite <- Z.pow_add_r by lia; f_equal; lia).
           replace (2 ^ Z.of_nat (S n1)) with (2 ^ Z.of_nat n * 2 ^ Z.of_nat (S (n1 - n))) by (rewrite <- Z.pow_add_r by lia; f_equal; lia).
           lia.
      * cbn [dtail hd tl] in Ed. inversion Ed; subst l b' i'. cbn [length bitsz].
        replace (S b - b)%nat with 1%nat by lia. replace (pos + 1)%nat with (S pos) by lia.
        rewrite Nat.add_0_r. conjs; auto. lia.
Qed.

End W.

(** ** Depositing a plane *)
Definition addbit (k : nat) (d : Z) (b : bool) : Z := d + Z.b2z b * 2 ^ Z.of_nat k.
Fixpoint addplane (k : nat) (data : list Z) (p : list bool) : list Z :=
  match data, p with
  | d :: data, b :: p => addbit k d b :: addplane k data p
  | _, _ => data
  end.
(** the values whose planes k-1, k-2, ... are the given ones, added to [data] *)
Fixpoint assemble (k : nat) (ps : list (list bool)) (data : list Z) : list Z :=
  match ps, k with
  | p :: ps, S k => assemble k ps (addplane k data p)
  | _, _ => data
  end.

(** room for planes below k *)
Definition roomy (P k : nat) (d : Z) : Prop := exists q, d = q * 2 ^ Z.of_nat k /\ 0 <= q /\ d + 2 ^ Z.of_nat k <= 2 ^ Z.of_nat P.

Lemma roomy_0 P k : (k <= P)%nat -> roomy P k 0.
Proof.
  intros. exists 0. conjs; try lia. assert (2 ^ Z.of_nat k <= 2 ^ Z.of_nat P) by (apply Z.pow_le_mono_r; lia). lia.
Qed.

Lemma addbit_roomy P k d b : roomy P (S k) d -> roomy P k (addbit k d b) /\ uintP P (addbit k d b) = addbit k d b.
Proof.
  intros (q & E & Hq & L). unfold addbit. rewrite pow2_S in *.
  pose proof (pow2_pos (Z.of_nat k) ltac:(lia)).
  assert (roomy P k (d + Z.b2z b * 2 ^ Z.of_nat k)) as R.
  { exists (2 * q + Z.b2z b). destruct b; cbn [Z.b2z]; conjs; lia. }
  split; auto. unfold uintP. rewrite Z.mod_small; auto. destruct R as (q' & E' & H' & L').
  split; [rewrite E'; apply Z.mul_nonneg_nonneg; lia|lia].
Qed.

Lemma addbit_uintP P k d b : (k < P)%nat -> roomy P (S k) d ->
  uintP P (d + uintP P (Z.shiftl (Z.b2z b) (Z.of_nat k))) = addbit k d b.
Proof.
  intros Hk R. rewrite Z.shiftl_mul_pow2 by lia.
  assert (uintP P (Z.b2z b * 2 ^ Z.of_nat k) = Z.b2z b * 2 ^ Z.of_nat k) as ->.
  { unfold uintP. apply Z.mod_small. assert (2 ^ Z.of_nat k < 2 ^ Z.of_nat P) by (apply Z.pow_lt_mono_r; lia).
    pose proof (pow2_pos (Z.of_nat k) ltac:(lia)). destruct b; cbn [Z.b2z]; lia. }
  apply (addbit_roomy P k d b R).
Qed.

Lemma addplane_roomy P k data p : Forall (roomy P (S k)) data -> length p = length data ->
  Forall (roomy P k) (addplane k data p).
Proof.
  intros H. revert p. induction H; intros [|b p] L; cbn in *; try lia; constructor.
  - apply addbit_roomy; auto.
  - apply IHForall. lia.
Qed.

Lemma addplane_length k data p : length (addplane k data p) = length data.
Proof. revert p; induction data; intros [|b p]; cbn; auto. Qed.

Lemma addplane_false k data j : addplane k data (repeat false j) = data.
Proof.
  revert j; induction data; intros [|j]; cbn; auto. rewrite IHdata. f_equal. unfold addbit. cbn. lia.
Qed.

Lemma deposit_spec P k : (k < P)%nat -> forall data p,
  Forall (roomy P (S k)) data -> length p = length data ->
  deposit P data (bitsz p) k = Some (addplane k data p).
Proof.
  intros Hk. induction data as [|d data IH]; intros p R L; (destruct p as [|b p]; [|try (cbn in L; lia)]).
  - reflexivity.
  - cbn in L; lia.
  - cbn [deposit]. inversion R; subst.
    destruct (Z.eqb_spec (bitsz (b :: p)) 0) as [E|E].
    + f_equal. assert (b :: p = repeat false (S (length p))) as ->.
      { pose proof (zbits_bitsz (b :: p)) as Z0. rewrite E, zbits_0 in Z0. symmetry. exact Z0. }
      rewrite addplane_false. reflexivity.
    + assert (Z.shiftr (bitsz (b :: p)) 1 = bitsz p) as ->.
      { cbn [bitsz]. rewrite Z.shiftr_div_pow2 by lia. change (2 ^ 1) with 2.
        rewrite (Z.add_comm (Z.b2z b)), Z.mul_comm, Z.div_add_l by lia. destruct b; cbn; lia. }
      cbn in L. rewrite IH by (auto; lia).
      assert (Z.land (bitsz (b :: p)) 1 = Z.b2z b) as ->.
      { change 1 with (Z.ones 1). rewrite Z.land_ones by lia. cbn [bitsz]. change (2 ^ 1) with 2.
        rewrite Z.mul_comm, Z_mod_plus_full. destruct b; reflexivity. }
      cbn [addplane]. rewrite addbit_uintP; auto.
Qed.

Lemma bitsz_pad l n : bitsz (l ++ repeat false n) = bitsz l.
Proof.
  rewrite bitsz_app. enough (bitsz (repeat false n) = 0) by lia.
  induction n; cbn [repeat bitsz]; auto. rewrite IHn. reflexivity.
Qed.

Lemma firstn_skipn_length {A} m pos (M : list A) : (pos + m <= length M)%nat -> length (firstn m (skipn pos M)) = m.
Proof. intros. rewrite firstn_length, skipn_length. lia. Qed.

Lemma dcode_budget k : forall kmin size n b inp, (snd (fst (dcode k kmin size n b inp)) <= b)%nat.
Proof.
  induction k as [|k IH]; intros; cbn [dcode]; [cbn; lia|].
  destruct (negb (b =? 0) && (kmin <? S k))%nat; [|cbn; lia].
  pose proof (dtail_budget (size - n) false (b - Nat.min n b) (skipn (Nat.min n b) inp)) as D.
  destruct (dtail (size - n) false _ _) as [[l b1] i1]. cbn [fst snd] in D.
  specialize (IH kmin size (n + length l)%nat b1 i1).
  destruct (dcode k kmin size _ b1 i1) as [[ps b2] i2]. cbn [fst snd] in *. lia.
Qed.

Lemma dcode_planes_length k : forall kmin size n b inp, (n <= size)%nat ->
  Forall (fun p => length p = size) (fst (fst (dcode k kmin size n b inp))).
Proof.
  induction k as [|k IH]; intros kmin size n b inp Hn; cbn [dcode]; [cbn; auto|].
  destruct (negb (b =? 0) && (kmin <? S k))%nat; [|cbn; auto].
  pose proof (dtail_len (size - n) false (b - Nat.min n b) (skipn (Nat.min n b) inp)) as D.
  destruct (dtail (size - n) false _ _) as [[l b1] i1]. cbn [fst snd] in D.
  specialize (IH kmin size (n + length l)%nat b1 i1 ltac:(lia)).
  destruct (dcode k kmin size _ b1 i1) as [[ps b2] i2]. cbn [fst snd] in *.
  constructor; auto. unfold pad_to. rewrite !app_length, !repeat_length.
  pose proof (firstn_le_length (Nat.min n b) inp). rewrite firstn_length in *. lia.
Qed.

Lemma pad_to_plane size n l1 l : (length l1 <= n)%nat -> (n + length l <= size)%nat ->
  length (pad_to size (pad_to n l1 ++ l)) = size /\
  bitsz (pad_to size (pad_to n l1 ++ l)) = bitsz l1 + 2 ^ Z.of_nat n * bitsz l.
Proof.
  intros. unfold pad_to. split.
  - rewrite !app_length, !repeat_length. lia.
  - rewrite bitsz_pad, bitsz_app, app_length, repeat_length, bitsz_pad.
    replace (length l1 + (n - length l1))%nat with n by lia. lia.
Qed.

Section W2.
Variable W : nat.
Hypothesis HW : (1 <= W <= 64)%nat.
Notation rat := (rat W).

Lemma dec_planes_spec P m : forall k kmin size n b data s pos,
  (k <= P)%nat -> (size <= 64)%nat -> (n <= size)%nat -> length data = size -> Forall (roomy P k) data ->
  rat m pos s ->
  let '(ps, b', i') := dcode k kmin size n b (skipn pos (membits W m)) in
  (pos + (b - b') <= W * length m)%nat ->
  let '(b1, data1, s1) := dec_planes W P k kmin size n b data s in
  b1 = b' /\ data1 = assemble k ps data /\ rat m (pos + (b - b')) s1 /\
  i' = skipn (pos + (b - b')) (membits W m).
Proof.
  induction k as [|k IH]; intros kmin size n b data s pos Hk Hs Hn Hd Hro Hr.
  - cbn. intros _. rewrite Nat.sub_diag, Nat.add_0_r. conjs; auto.
  - cbn [dcode dec_planes].
    destruct (negb (b =? 0) && (kmin <? S k))%nat eqn:Ec.
    2:{ cbn. intros _. rewrite Nat.sub_diag, Nat.add_0_r. conjs; auto. }
    set (mm := Nat.min n b). rewrite <- skipn_add, (Nat.add_comm mm pos).
    destruct (dtail (size - n) false (b - mm) (skipn (pos + mm) (membits W m))) as [[l b1] i1] eqn:Et.
    pose proof (dtail_budget (size - n) false (b - mm) (skipn (pos + mm) (membits W m))) as Hb1. rewrite Et in Hb1. cbn [fst snd] in Hb1.
    pose proof (dtail_len (size - n) false (b - mm) (skipn (pos + mm) (membits W m))) as Hl. rewrite Et in Hl. cbn [fst snd] in Hl.
    pose proof (dcode_budget k kmin size (n + length l) b1 i1) as Hb2.
    destruct (dcode k kmin size (n + length l) b1 i1) as [[ps b2] i2] eqn:Ep. cbn [fst snd] in Hb2. intros Hc.
    pose proof (rat_read_bits W HW m pos s mm Hr ltac:(lia) ltac:(lia)) as R.
    destruct (stream_read_bits W s mm) as [x s1]. destruct R as [-> R].
    set (F := firstn mm (skipn pos (membits W m))) in *.
    assert (length F = mm) as LF.
    { apply firstn_skipn_length. rewrite membits_length by auto. lia. }
    pose proof (bitsz_bound F) as BF. rewrite LF in BF.
    destruct (le_lt_dec n b) as [Hnb|Hnb].
    + assert (mm = n) as Em by (unfold mm; lia).
      pose proof (dec_outer_spec W HW m (S size) (size - n) size n (b - mm) (bitsz F) s1 (pos + mm)%nat
        ltac:(lia) ltac:(lia) Hs ltac:(rewrite <- Em; lia) R) as O.
      rewrite Et in O. specialize (O ltac:(lia)).
      destruct (dec_outer W (S size) size n (b - mm) (bitsz F) s1) as [[[n2 b3] x2] s2].
      destruct O as (-> & -> & -> & O4 & O5).
      destruct (pad_to_plane size n F l ltac:(lia) ltac:(lia)) as [PL PB].
      rewrite <- PB, deposit_spec by (auto; lia).
      specialize (IH kmin size (n + length l)%nat b1 (addplane k data (pad_to size (pad_to n F ++ l))) s2
        (pos + mm + (b - mm - b1))%nat ltac:(lia) Hs ltac:(lia)).
      rewrite addplane_length in IH. specialize (IH Hd).
      specialize (IH ltac:(apply addplane_roomy; auto; lia) O4).
      rewrite <- O5, Ep in IH. specialize (IH ltac:(lia)).
      destruct (dec_planes W P k kmin size (n + length l) b1 _ s2) as [[b4 d4] s4].
      destruct IH as (I1 & I2 & I3 & I4).
      replace (pos + mm + (b - mm - b1) + (b1 - b2))%nat with (pos + (b - b2))%nat in * by lia.
      conjs; auto.
    + assert (mm = b) as Em by (unfold mm; lia). rewrite Em, Nat.sub_diag in *.
      assert (dec_outer W (S size) size n 0 (bitsz F) s1 = (n, 0%nat, bitsz F, s1)) as ->.
      { cbn [dec_outer]. rewrite andb_false_r. reflexivity. }
      assert (l = [] /\ b1 = 0%nat /\ i1 = skipn (pos + b) (membits W m)) as (-> & -> & Ei1).
      { destruct (size - n)%nat; cbn in Et; inversion Et; auto. }
      cbn [length] in *. rewrite Nat.add_0_r in *. assert (b2 = 0)%nat as -> by lia.
      assert (ps = [] /\ i2 = i1) as [-> ->].
      { destruct k; cbn in Ep; inversion Ep; auto. }
      destruct (pad_to_plane size n F [] ltac:(lia) ltac:(cbn; lia)) as [PL PB].
      replace (bitsz F) with (bitsz F + 2 ^ Z.of_nat n * bitsz []) by (cbn; lia).
      rewrite <- PB, deposit_spec by (auto; lia).
      assert (forall kk d, dec_planes W P kk kmin size n 0 d s1 = (0%nat, d, s1)) as ->.
      { intros [|] ?; reflexivity. }
      rewrite Nat.sub_0_r. conjs; auto. destruct k; auto.
Qed.

End W2.

(** ** The general decoder *)
Lemma nth_error_some {A} i (l : list A) d : (i < length l)%nat -> nth_error l i = Some (nth i l d).
Proof. apply nth_error_nth'. Qed.

Lemma upd_app {A} (a b : list A) x y : upd (a ++ x :: b) (length a) y = a ++ y :: b.
Proof. induction a; cbn; [reflexivity|f_equal; auto]. Qed.

Lemma add_bit_spec P k a d b : (k < P)%nat -> roomy P (S k) d ->
  add_bit P (a ++ d :: b) (length a) k = Some (a ++ addbit k d true :: b).
Proof.
  intros Hk Hr. unfold add_bit. rewrite nth_error_app2, Nat.sub_diag by lia. cbn [nth_error].
  f_equal. rewrite upd_app. do 2 f_equal. rewrite <- (addbit_uintP P k d true Hk Hr). reflexivity.
Qed.

Lemma addplane_app k a b p q : length p = length a -> addplane k (a ++ b) (p ++ q) = addplane k a p ++ addplane k b q.
Proof.
  revert p; induction a; intros [|x p] L; cbn in *; try lia; auto. f_equal. auto.
Qed.

Lemma addplane_pad k data p j : addplane k data (p ++ repeat false j) = addplane k data p.
Proof.
  revert p; induction data as [|d data IH]; intros [|x p]; cbn; auto.
  - destruct j; cbn; auto. rewrite addplane_false. f_equal. unfold addbit; cbn; lia.
  - rewrite IH. auto.
Qed.

Lemma repeat_roomy P k size : (k <= P)%nat -> Forall (roomy P k) (repeat 0 size).
Proof. intros H. induction size; constructor; auto. apply roomy_0; auto. Qed.

Section W3.
Variable W : nat.
Hypothesis HW : (1 <= W <= 64)%nat.
Notation rat := (rat W).

Lemma many_read_spec P m k : (k < P)%nat -> forall mm a data s pos,
  (mm <= length data)%nat -> Forall (roomy P (S k)) data -> rat m pos s -> (pos + mm <= W * length m)%nat ->
  let '(data1, s1) := many_read W P mm (length a) k (a ++ data) s in
  data1 = a ++ addplane k data (firstn mm (skipn pos (membits W m))) /\ rat m (pos + mm) s1.
Proof.
  intros Hk. induction mm as [|mm IH]; intros a data s pos Hm Hro Hr Hc.
  - cbn. rewrite Nat.add_0_r. split; auto. destruct data; auto.
  - destruct data as [|d data]; [cbn in Hm; lia|]. cbn [many_read]. inversion Hro; subst.
    pose proof (rat_read_bit W HW m pos s Hr ltac:(lia)) as R.
    destruct (stream_read_bit W s) as [v s1]. destruct R as [-> R].
    rewrite (skipn_step false (membits W m) pos) by (rewrite membits_length by auto; lia).
    set (v := nth pos (membits W m) false) in *. cbn [firstn addplane].
    assert (forall d', let '(data1, s2) := many_read W P mm (S (length a)) k (a ++ d' :: data) s1 in
      data1 = a ++ d' :: addplane k data (firstn mm (skipn (S pos) (membits W m))) /\ rat m (pos + S mm) s2) as G.
    { intros d'. specialize (IH (a ++ [d']) data s1 (S pos) ltac:(cbn in Hm; lia) ltac:(auto) R ltac:(lia)).
      rewrite app_length, <- !app_assoc in IH. cbn [length app] in IH. rewrite Nat.add_1_r in IH.
      destruct (many_read W P mm (S (length a)) k (a ++ d' :: data) s1) as [data1 s2].
      destruct IH as [-> ?]. replace (pos + S mm)%nat with (S pos + mm)%nat by lia. auto. }
    destruct v.
    + rewrite add_bit_spec by auto. apply G.
    + replace (addbit k d false) with d by (unfold addbit; cbn; lia). apply G.
Qed.

Lemma dmany_outer_spec P m k : (k < P)%nat -> forall fuel r a data size n b s pos,
  (r < fuel)%nat -> (n + r = size)%nat -> length a = n -> length data = r -> Forall (roomy P (S k)) data -> rat m pos s ->
  let '(l, b', i') := dtail r false b (skipn pos (membits W m)) in
  (pos + (b - b') <= W * length m)%nat ->
  let '(n1, b1, data1, s1) := dmany_outer W P fuel size n b k (a ++ data) s in
  n1 = (n + length l)%nat /\ b1 = b' /\ data1 = a ++ addplane k data l /\
  rat m (pos + (b - b')) s1 /\ i' = skipn (pos + (b - b')) (membits W m).
Proof.
  intros Hk.
  induction fuel as [|fuel IH]; intros r a data size n b s pos Hfu Hn Ha Hd Hro Hr; [lia|].
  destruct r as [|r].
  - cbn [dtail dmany_outer]. assert (n <? size = false)%nat as -> by (apply Nat.ltb_ge; lia). intros Hc.
    cbn [andb length]. rewrite Nat.sub_diag, !Nat.add_0_r in *. conjs; auto. destruct data; auto.
  - cbn [dmany_outer]. assert (n <? size = true)%nat as -> by (apply Nat.ltb_lt; lia).
    destruct b as [|b].
    + cbn [dtail Nat.eqb negb andb length Nat.sub]. intros _. rewrite !Nat.add_0_r. conjs; auto. destruct data; auto.
    + cbn [Nat.eqb negb andb]. rewrite Nat.sub_succ, Nat.sub_0_r.
      destruct (dtail (S r) false (S b) (skipn pos (membits W m))) as [[l b'] i'] eqn:Ed. intros Hc.
      assert (pos < W * length m)%nat as Hp.
      { enough (b' <= b)%nat by lia. revert Ed. cbn [dtail].
        set (inp := skipn pos (membits W m)).
        destruct (hd false inp); [|intros [= _ <- _]; lia].
        pose proof (dtail_budget r (negb (hd false (tl inp))) (b - 1) (tl (tl inp))) as D1.
        pose proof (dtail_budget r false b (tl inp)) as D2.
        destruct ((r =? 0) || (b =? 0))%nat.
        - destruct (dtail r false b (tl inp)) as [[? ?] ?]. cbn in D2. intros [= _ <- _]. lia.
        - destruct (dtail r _ (b - 1) _) as [[? ?] ?]. cbn in D1. intros [= _ <- _]. lia. }
      pose proof (rat_read_bit W HW m pos s Hr Hp) as R.
      destruct (stream_read_bit W s) as [v s1]. destruct R as [-> R].
      pose proof Hp as Hp'. rewrite <- membits_length in Hp' by auto.
      rewrite (skipn_step false _ _ Hp') in Ed. set (v := nth pos (membits W m) false) in *.
      destruct v.
      * rewrite dtail_enter in Ed.
        pose proof (dec_inner_spec W HW m r (S size) size n b s1 (S pos) ltac:(lia) Hn R) as Q.
        rewrite Ed in Q. cbn [fst snd] in Q.
        pose proof (dtail_budget (S r) true b (skipn (S pos) (membits W m))) as Hb'. rewrite Ed in Hb'. cbn [fst snd] in Hb'.
        specialize (Q ltac:(lia)).
        destruct (dec_inner W (S size) size n b s1) as [[n1 b1] s2].
        destruct Q as (Q1 & Q2 & Q3 & Q4).
        set (j := (n1 - n)%nat).
        assert (exists d0 d d1, data = d0 ++ d :: d1 /\ length d0 = j) as (d0 & d & d1 & Edata & Lj).
        { exists (firstn j data), (nth j data 0), (skipn (S j) data). split.
          - rewrite <- (firstn_skipn j data) at 1. f_equal. apply skipn_step. lia.
          - apply firstn_length_le. lia. }
        assert (Forall (roomy P (S k)) d0 /\ roomy P (S k) d /\ Forall (roomy P (S k)) d1) as (_ & Rd & Rd1).
        { rewrite Edata, Forall_app in Hro. destruct Hro as [? Ho]. inversion Ho; auto. }
        rewrite Edata, app_assoc in *.
        assert (add_bit P ((a ++ d0) ++ d :: d1) n1 k = Some ((a ++ d0) ++ addbit k d true :: d1)) as ->.
        { replace n1 with (length (a ++ d0)) by (rewrite app_length; lia). apply add_bit_spec; auto. }
        specialize (IH (size - n1 - 1)%nat (a ++ d0 ++ [addbit k d true]) d1 size (S n1) b1 s2 (S pos + (b - b1))%nat ltac:(lia) ltac:(lia)).
        specialize (IH ltac:(rewrite !app_length; cbn; lia)).
        specialize (IH ltac:(rewrite !app_length in Hd; cbn in Hd; lia) Rd1 Q3).
        destruct (dtail (size - n1 - 1) false b1 (skipn (S pos + (b - b1)) (membits W m))) as [[l2 b2] i2] eqn:E2.
        pose proof (dtail_budget (size - n1 - 1) false b1 (skipn (S pos + (b - b1)) (membits W m))) as Hb2.
        rewrite E2 in Hb2. cbn [fst snd] in Hb2.
        inversion Q4; subst l b' i'; clear Q4. specialize (IH ltac:(lia)).
        rewrite <- !app_assoc in IH. cbn [app] in IH. rewrite <- app_assoc.
        destruct (dmany_outer W P fuel size (S n1) b1 k _ s2) as [[[n3 b3] x3] s3].
        destruct IH as (K1 & K2 & K3 & K4 & K5).
        replace (S pos + (b - b1) + (b1 - b2))%nat with (pos + (S b - b2))%nat in * by lia.
        conjs; auto.
        -- rewrite app_length, repeat_length. cbn [length]. lia.
        -- rewrite K3. fold j. rewrite <- Lj.
           rewrite addplane_app by (rewrite repeat_length; auto). rewrite addplane_false.
           cbn [addplane]. rewrite <- ?app_assoc. reflexivity.
      * cbn [dtail hd tl] in Ed. inversion Ed; subst l b' i'. cbn [length].
        replace (S b - b)%nat with 1%nat by lia. replace (pos + 1)%nat with (S pos) by lia.
        rewrite Nat.add_0_r. conjs; auto. destruct data; auto.
Qed.

Lemma dmany_planes_spec P m : forall k kmin size n b data s pos,
  (k <= P)%nat -> (n <= size)%nat -> length data = size -> Forall (roomy P k) data ->
  rat m pos s ->
  let '(ps, b', i') := dcode k kmin size n b (skipn pos (membits W m)) in
  (pos + (b - b') <= W * length m)%nat ->
  let '(b1, data1, s1) := dmany_planes W P k kmin size n b data s in
  b1 = b' /\ data1 = assemble k ps data /\ rat m (pos + (b - b')) s1 /\
  i' = skipn (pos + (b - b')) (membits W m).
Proof.
  induction k as [|k IH]; intros kmin size n b data s pos Hk Hn Hd Hro Hr.
  - cbn. intros _. rewrite Nat.sub_diag, Nat.add_0_r. conjs; auto.
  - cbn [dcode dmany_planes].
    destruct (negb (b =? 0) && (kmin <? S k))%nat eqn:Ec.
    2:{ cbn. intros _. rewrite Nat.sub_diag, Nat.add_0_r. conjs; auto. }
    set (mm := Nat.min n b). rewrite <- skipn_add, (Nat.add_comm mm pos).
    destruct (dtail (size - n) false (b - mm) (skipn (pos + mm) (membits W m))) as [[l b1] i1] eqn:Et.
    pose proof (dtail_budget (size - n) false (b - mm) (skipn (pos + mm) (membits W m))) as Hb1. rewrite Et in Hb1. cbn [fst snd] in Hb1.
    pose proof (dtail_len (size - n) false (b - mm) (skipn (pos + mm) (membits W m))) as Hl. rewrite Et in Hl. cbn [fst snd] in Hl.
    pose proof (dcode_budget k kmin size (n + length l) b1 i1) as Hb2.
    destruct (dcode k kmin size (n + length l) b1 i1) as [[ps b2] i2] eqn:Ep. cbn [fst snd] in Hb2. intros Hc.
    pose proof (many_read_spec P m k ltac:(lia) mm [] data s pos ltac:(lia) Hro Hr ltac:(lia)) as R.
    cbn [length app] in R.
    destruct (many_read W P mm 0 k data s) as [data1 s1]. destruct R as [-> R].
    set (F := firstn mm (skipn pos (membits W m))) in *.
    assert (length F = mm) as LF.
    { apply firstn_skipn_length. rewrite membits_length by auto. lia. }
    destruct (le_lt_dec n b) as [Hnb|Hnb].
    + assert (mm = n) as Em by (unfold mm; lia).
      assert (addplane k data F = addplane k (firstn n data) F ++ skipn n data) as EF.
      { rewrite <- (firstn_skipn n data) at 1. rewrite <- (app_nil_r F) at 1. rewrite addplane_app.
        - destruct (skipn n data); auto.
        - rewrite firstn_length. lia. }
      pose proof (dmany_outer_spec P m k ltac:(lia) (S size) (size - n) (addplane k (firstn n data) F) (skipn n data) size n (b - mm) s1 (pos + mm)%nat
        ltac:(lia) ltac:(lia) ltac:(rewrite addplane_length, firstn_length; lia)
        ltac:(rewrite skipn_length; lia)) as O.
      assert (Forall (roomy P (S k)) (skipn n data)) as Hro2.
      { rewrite Forall_forall in *. intros z Hz. apply Hro. rewrite <- (firstn_skipn n data). apply in_or_app; auto. }
      specialize (O Hro2 R).
      rewrite Et in O. specialize (O ltac:(lia)). rewrite EF.
      destruct (dmany_outer W P (S size) size n (b - mm) k _ s1) as [[[n2 b3] x2] s2].
      destruct O as (-> & -> & -> & O4 & O5).
      assert (addplane k (firstn n data) F ++ addplane k (skipn n data) l
              = addplane k data (pad_to size (pad_to n F ++ l))) as ->.
      { unfold pad_to. rewrite addplane_pad, LF, Em, Nat.sub_diag. cbn [repeat].
        rewrite app_nil_r, <- addplane_app by (rewrite firstn_length; lia). rewrite firstn_skipn. reflexivity. }
      destruct (pad_to_plane size n F l ltac:(lia) ltac:(lia)) as [PL PB].
      specialize (IH kmin size (n + length l)%nat b1 (addplane k data (pad_to size (pad_to n F ++ l))) s2
        (pos + mm + (b - mm - b1))%nat ltac:(lia) ltac:(lia)).
      rewrite addplane_length in IH. specialize (IH Hd).
      specialize (IH ltac:(apply addplane_roomy; auto; lia) O4).
      rewrite <- O5, Ep in IH. specialize (IH ltac:(lia)).
      destruct (dmany_planes W P k kmin size (n + length l) b1 _ s2) as [[b4 d4] s4].
      destruct IH as (I1 & I2 & I3 & I4).
      replace (pos + mm + (b - mm - b1) + (b1 - b2))%nat with (pos + (b - b2))%nat in * by lia.
      conjs; auto.
    + assert (mm = b) as Em by (unfold mm; lia). rewrite Em, Nat.sub_diag in *.
      assert (forall d, dmany_outer W P (S size) size n 0 k d s1 = (n, 0%nat, d, s1)) as ->.
      { intros. cbn [dmany_outer]. rewrite andb_false_r. reflexivity. }
      assert (l = [] /\ b1 = 0%nat /\ i1 = skipn (pos + b) (membits W m)) as (-> & -> & Ei1).
      { destruct (size - n)%nat; cbn in Et; inversion Et; auto. }
      cbn [length] in *. rewrite Nat.add_0_r in *. assert (b2 = 0)%nat as -> by lia.
      assert (ps = [] /\ i2 = i1) as [-> ->].
      { destruct k; cbn in Ep; inversion Ep; auto. }
      assert (forall kk d, dmany_planes W P kk kmin size n 0 d s1 = (0%nat, d, s1)) as ->.
      { intros [|] ?; reflexivity. }
      rewrite Nat.sub_0_r. conjs; auto. unfold pad_to. rewrite app_nil_r.
      cbn [assemble]. rewrite !addplane_pad.
      destruct k; auto.
Qed.

(** ** Whole decoders, on any readable stream *)
Definition decode_result (P : nat) (m : list Z) (pos maxbits maxprec size : nat) : nat * list Z * nat :=
  let '(ps, b, _) := dcode P (kmin_of P maxprec) size 0 maxbits (skipn pos (membits W m)) in
  ((maxbits - b)%nat, assemble P ps (repeat 0 size), (pos + (maxbits - b))%nat).

Lemma decode_ints_spec P m pos s maxbits maxprec size :
  (size <= 64)%nat -> rat m pos s ->
  let '(c, data, pos') := decode_result P m pos maxbits maxprec size in
  (pos' <= W * length m)%nat ->
  let '(c1, data1, s1) := decode_ints W P s maxbits maxprec size in
  c1 = c /\ data1 = data /\ rat m pos' s1.
Proof.
  intros Hs Hr. unfold decode_result, decode_ints.
  pose proof (dec_planes_spec W HW P m P (kmin_of P maxprec) size 0 maxbits (repeat 0 size) s pos ltac:(lia) Hs ltac:(lia)
    (repeat_length _ _) ltac:(apply repeat_roomy; lia) Hr) as R.
  destruct (dcode P (kmin_of P maxprec) size 0 maxbits (skipn pos (membits W m))) as [[ps b'] i'].
  intros Hc. specialize (R Hc).
  destruct (dec_planes W P P (kmin_of P maxprec) size 0 maxbits (repeat 0 size) s) as [[b1 d1] s1].
  destruct R as (-> & -> & R & _). auto.
Qed.

Lemma decode_many_ints_spec P m pos s maxbits maxprec size :
  rat m pos s ->
  let '(c, data, pos') := decode_result P m pos maxbits maxprec size in
  (pos' <= W * length m)%nat ->
  let '(c1, data1, s1) := decode_many_ints W P s maxbits maxprec size in
  c1 = c /\ data1 = data /\ rat m pos' s1.
Proof.
  intros Hr. unfold decode_result, decode_many_ints.
  pose proof (dmany_planes_spec P m P (kmin_of P maxprec) size 0 maxbits (repeat 0 size) s pos ltac:(lia) ltac:(lia)
    (repeat_length _ _) ltac:(apply repeat_roomy; lia) Hr) as R.
  destruct (dcode P (kmin_of P maxprec) size 0 maxbits (skipn pos (membits W m))) as [[ps b'] i'].
  intros Hc. specialize (R Hc).
  destruct (dmany_planes W P P (kmin_of P maxprec) size 0 maxbits (repeat 0 size) s) as [[b1 d1] s1].
  destruct R as (-> & -> & R & _). auto.
Qed.
End W3.
