(** The concrete encoders write exactly the specified code, cut to the budget. *)
From Coq Require Import ZArith Lia List Bool Arith.
From Verif Require Import ListAux Bits Bitstream BitstreamProofs BitstreamProofs2 StreamSpec StreamRuns.
From Verif Require Import EmbedSpec ZfpCodec.
Import ListNotations.
Local Open Scope Z_scope.

(** ** Bit planes as integers *)
Lemma land1_testbit d k : Z.land (Z.shiftr d (Z.of_nat k)) 1 = Z.b2z (Z.testbit d (Z.of_nat k)).
Proof.
  change 1 with (Z.ones 1). rewrite Z.land_ones by lia. change (2 ^ 1) with 2.
  rewrite <- Z.bit0_mod, Z.shiftr_spec by lia. f_equal.
Qed.

Lemma odd_shiftr d k : Z.odd (Z.shiftr d (Z.of_nat k)) = Z.testbit d (Z.of_nat k).
Proof. rewrite <- Z.bit0_odd, Z.shiftr_spec by lia. f_equal. Qed.

Lemma extract_from_spec data k : forall i x,
  (i + length data <= 64)%nat -> 0 <= x < 2 ^ Z.of_nat i ->
  extract_from i x data k = x + bitsz (plane data k) * 2 ^ Z.of_nat i.
Proof.
  induction data as [|d data IH]; intros i x Hl Hx.
  - cbn. lia.
  - cbn [extract_from plane map bitsz length] in *.
    rewrite land1_testbit, Z.shiftl_mul_pow2 by lia.
    set (t := Z.testbit d (Z.of_nat k)).
    pose proof (pow2_pos (Z.of_nat i) ltac:(lia)).
    assert (2 ^ Z.of_nat (S i) <= 2 ^ 64).
    { change 64 with (Z.of_nat 64). apply Z.pow_le_mono_r; lia. }
    pose proof (pow2_S i) as E.
    assert (0 <= Z.b2z t <= 1) by (destruct t; simpl; lia).
    assert (0 <= Z.b2z t * 2 ^ Z.of_nat i <= 2 ^ Z.of_nat i) by nia.
    unfold u64. rewrite (Z.mod_small (Z.b2z t * _)) by lia. rewrite Z.mod_small by lia.
    rewrite IH by (try lia). rewrite E. fold (plane data k). destruct t; simpl Z.b2z; lia.
Qed.

Lemma extract_plane_spec data k : (length data <= 64)%nat ->
  extract_plane data k = bitsz (plane data k).
Proof. intros. unfold extract_plane. rewrite extract_from_spec by (simpl; lia). simpl. lia. Qed.

Lemma plane_length data k : length (plane data k) = length data.
Proof. apply map_length. Qed.

(** ** The list-level code *)
Lemma etail_unfold inrun x r :
  etail inrun (x :: r) =
    let body := match r with [] => ([], 1%nat)
                | _ => let '(e, c) := etail (negb x) r in (x :: e, S c) end in
    if inrun then body
    else if existsb id (x :: r) then (true :: fst body, snd body) else ([false], 0%nat).
Proof. reflexivity. Qed.

Lemma etail_out l : l <> [] -> existsb id l = true ->
  etail false l = (true :: fst (etail true l), snd (etail true l)).
Proof. destruct l as [|x r]; [congruence|]. intros _ E. rewrite !etail_unfold, E. reflexivity. Qed.

Lemma etail_none l : l <> [] -> existsb id l = false -> etail false l = ([false], 0%nat).
Proof. destruct l as [|x r]; [congruence|]. intros _ E. rewrite etail_unfold, E. reflexivity. Qed.

Lemma bitsz_zero_iff l : bitsz l = 0 <-> existsb id l = false.
Proof.
  induction l as [|b l IH]; [simpl; tauto|].
  cbn [bitsz existsb id]. pose proof (bitsz_bound l).
  unfold id at 1. destruct b; cbn [orb Z.b2z].
  - split; [lia|discriminate].
  - rewrite <- IH. lia.
Qed.

Lemma bitsz_eqb l : (bitsz l =? 0) = negb (existsb id l).
Proof.
  destruct (existsb id l) eqn:E.
  - apply Z.eqb_neq. rewrite bitsz_zero_iff. congruence.
  - apply Z.eqb_eq, bitsz_zero_iff. auto.
Qed.

Lemma bitsz_odd b l : Z.odd (bitsz (b :: l)) = b.
Proof. cbn [bitsz]. rewrite Z.add_comm. rewrite Z.odd_add, Z.odd_mul. destruct b; reflexivity. Qed.

Lemma bitsz_shift b l : Z.shiftr (bitsz (b :: l)) 1 = bitsz l.
Proof.
  rewrite Z.shiftr_div_pow2 by lia. change (2 ^ 1) with 2. cbn [bitsz].
  symmetry. apply (Z.div_unique_pos _ _ _ (Z.b2z b)); destruct b; cbn [Z.b2z]; lia.
Qed.

Section W.
Variable W : nat.
Hypothesis HW : (1 <= W <= 64)%nat.

Notation wat := (wat W).
Definition cap (s : stream) : nat := (W * length (mem s))%nat.

Lemma wb s L b : wat s L -> (length L < cap s)%nat ->
  let '(r, s') := stream_write_bit W s b in r = b /\ wat s' (L ++ [b]) /\ wframe s s' /\ cap s' = cap s.
Proof.
  intros Hs Hc. destruct (do_write_spec W HW s L (PutBit b) Hs I) as [A B].
  { cbn. unfold cap in Hc. lia. }
  cbn [do_write op_bits] in A, B.
  pose proof (wat_tell W HW _ _ Hs) as T.
  pose proof (write_bit_spec W HW s b (proj1 Hs) (proj1 (proj2 Hs))) as R.
  destruct (stream_write_bit W s b) as [r s']. cbn [snd] in A, B.
  destruct R as (R & _). { unfold cap in Hc. nia. }
  split; auto. split; auto. split; auto. unfold cap. destruct B as [-> _]. auto.
Qed.

Lemma wbs s L v n : wat s L -> 0 <= v < 2 ^ 64 -> (n <= 64)%nat -> (length L + n <= cap s)%nat ->
  let '(r, s') := stream_write_bits W s v n in
  r = v / 2 ^ Z.of_nat n /\ wat s' (L ++ zbits n v) /\ wframe s s' /\ cap s' = cap s.
Proof.
  intros Hs Hv Hn Hc. destruct (do_write_spec W HW s L (PutBits v n) Hs (conj Hv Hn)) as [A B].
  { cbn. unfold cap in Hc. lia. }
  pose proof (wat_tell W HW _ _ Hs) as T.
  pose proof (write_bits_spec W HW s v n (proj1 Hs) (proj1 (proj2 Hs)) Hv Hn) as R.
  cbn [do_write op_bits] in A, B. rewrite op_bits_zbits in A.
  destruct (stream_write_bits W s v n) as [r s']. cbn [snd] in A, B.
  destruct R as (_ & _ & _ & R & _). { unfold cap in Hc. nia. }
  split; auto. split; auto. split; auto. unfold cap. destruct B as [-> _]. auto.
Qed.

(** ** Inner and outer loops *)
Lemma enc_inner_spec : forall l fuel size n b s L,
  l <> [] -> existsb id l = true -> (length l < fuel)%nat -> (n + length l = size)%nat ->
  wat s L -> (length L + Nat.min b (length (fst (etail true l))) <= cap s)%nat ->
  let '(n1, b1, x1, s1) := enc_inner W fuel size n b (bitsz l) s in
  wframe s s1 /\ cap s1 = cap s /\
  ((exists l0 l1, l = l0 ++ true :: l1 /\ n1 = (n + length l0)%nat /\ x1 = bitsz (true :: l1) /\
      exists B, fst (etail true l) = B ++ fst (etail false l1) /\
      snd (etail true l) = (length l0 + 1 + snd (etail false l1))%nat /\
      (b1 + length B = b)%nat /\ wat s1 (L ++ B))
   \/ (b1 = 0%nat /\ (b < length (fst (etail true l)))%nat /\ wat s1 (L ++ firstn b (fst (etail true l))))).
Proof.
  induction l as [|x l IH]; intros fuel size n b s L Hne Hex Hfu Hn Hw Hc; [congruence|].
  destruct fuel as [|fuel]; [lia|]. cbn [enc_inner].
  rewrite bitsz_odd, bitsz_shift. cbn [length] in *.
  rewrite etail_unfold in *. cbv zeta in *. cbn iota beta in *.
  destruct l as [|y l].
  - (* last position *)
    assert (n <? size - 1 = false)%nat as -> by (apply Nat.ltb_ge; cbn in Hn; lia).
    cbn [andb]. split; [apply wframe_refl|]. split; auto. left.
    assert (x = true) as -> by (destruct x; auto; discriminate).
    exists [], []. cbn [length fst snd etail app]. conjs; auto; try lia.
    exists []. cbn [length app]. rewrite app_nil_r. conjs; auto; lia.
  - assert (n <? size - 1 = true)%nat as -> by (apply Nat.ltb_lt; cbn in Hn; lia).
    set (l' := y :: l) in *.
    destruct (etail (negb x) l') as [e c] eqn:Ee. cbn [fst snd length] in *.
    destruct (Nat.eqb_spec b 0) as [->|Hb].
    + cbn [andb negb]. split; [apply wframe_refl|]. split; auto. right.
      cbn [firstn]. rewrite app_nil_r. conjs; auto. lia.
    + cbn [andb negb].
      pose proof (wb s L x Hw) as R. destruct (stream_write_bit W s x) as [r s1].
      destruct R as (-> & R1 & R2 & R3); [lia|].
      destruct x; cbn [negb] in *.
      * split; auto. split; auto. left. exists [], l'. rewrite Ee. cbn [length app fst snd].
        conjs; auto; try lia. exists [true]. conjs; auto; cbn; lia.
      * assert (existsb id l' = true) as Hex' by exact Hex.
        specialize (IH fuel size (S n) (b - 1)%nat s1 (L ++ [false]) ltac:(unfold l'; congruence) Hex' ltac:(lia) ltac:(lia) R1).
        rewrite Ee in IH. cbn [fst snd] in IH.
        rewrite app_length in IH. cbn [length] in IH.
        specialize (IH ltac:(rewrite R3; lia)).
        destruct (enc_inner W fuel size (S n) (b - 1) (bitsz l') s1) as [[[n1 b1] x1] s2].
        destruct IH as (I1 & I2 & I3).
        split; [eapply wframe_trans; eauto|]. split; [congruence|].
        destruct I3 as [(l0 & l1 & J1 & J2 & J3 & B & J4 & J5 & J6 & J7)|(J1 & J2 & J3)].
        -- left. exists (false :: l0), l1. cbn [length app].
           conjs; try lia; auto; [congruence|]. exists (false :: B).
           cbn [length app]. conjs; try lia; [congruence|]. rewrite <- app_assoc in J7. exact J7.
        -- right. conjs; auto; try lia. destruct b as [|b]; [lia|]. cbn [firstn].
           rewrite Nat.sub_succ, Nat.sub_0_r, <- app_assoc in J3. exact J3.
Qed.

Lemma enc_outer_spec : forall fuel l size n b s L,
  (length l < fuel)%nat -> (n + length l = size)%nat ->
  wat s L -> (length L + Nat.min b (length (fst (etail false l))) <= cap s)%nat ->
  let '(n1, b1, s1) := enc_outer W fuel size n b (bitsz l) s in
  wframe s s1 /\ cap s1 = cap s /\ b1 = (b - length (fst (etail false l)))%nat /\
  (b1 <> 0%nat -> n1 = (n + snd (etail false l))%nat) /\
  wat s1 (L ++ firstn b (fst (etail false l))).
Proof.
  induction fuel as [|fuel IH]; intros l size n b s L Hfu Hn Hw Hc; [lia|].
  cbn [enc_outer].
  destruct l as [|x l].
  - assert (n <? size = false)%nat as -> by (apply Nat.ltb_ge; cbn in Hn; lia).
    cbn. rewrite firstn_nil, app_nil_r. conjs; auto; try lia; apply wframe_refl.
  - set (l' := x :: l) in *. assert (l' <> []) as Hne by (unfold l'; congruence).
    assert (n <? size = true)%nat as -> by (apply Nat.ltb_lt; cbn in Hn; lia).
    destruct (Nat.eqb_spec b 0) as [->|Hb].
    + cbn [andb negb firstn]. rewrite app_nil_r. conjs; auto; try lia; apply wframe_refl.
    + cbn [andb negb]. rewrite bitsz_eqb, negb_involutive.
      assert (1 <= length (fst (etail false l')))%nat as Hlen.
      { destruct (existsb id l') eqn:E; [rewrite etail_out by auto|rewrite etail_none by auto]; cbn; lia. }
      pose proof (wb s L (existsb id l') Hw) as R. destruct (stream_write_bit W s (existsb id l')) as [r s1].
      destruct R as (-> & R1 & R2 & R3); [lia|].
      destruct (existsb id l') eqn:E.
      * rewrite etail_out in * by auto. cbn [fst snd length] in *.
        pose proof (enc_inner_spec l' (S size) size n (b - 1)%nat s1 (L ++ [true]) Hne E ltac:(lia) Hn R1) as Q.
        rewrite app_length in Q. cbn [length] in Q. specialize (Q ltac:(rewrite R3; lia)).
        destruct (enc_inner W (S size) size n (b - 1) (bitsz l') s1) as [[[n1 b1] x1] s2].
        destruct Q as (I1 & I2 & [(l0 & l1 & J1 & J2 & J3 & B & J4 & J5 & J6 & J7)|(J1 & J2 & J3)]).
        -- subst x1. rewrite bitsz_shift.
           assert (length l' = length l0 + 1 + length l1)%nat as Ll.
           { rewrite J1, app_length. cbn. lia. }
           specialize (IH l1 size (S n1) b1 s2 (L ++ [true] ++ B) ltac:(lia) ltac:(lia)).
           rewrite <- app_assoc in J7. specialize (IH J7).
           rewrite !app_length in IH. cbn [length] in IH.
           rewrite J4, app_length in *. specialize (IH ltac:(lia)).
           destruct (enc_outer W fuel size (S n1) b1 (bitsz l1) s2) as [[n2 b2] s3].
           destruct IH as (K1 & K2 & K3 & K4 & K5).
           conjs.
           ++ eapply wframe_trans; [exact HW|exact R2|]. eapply wframe_trans; eauto.
           ++ congruence.
           ++ lia.
           ++ intros Hb2. rewrite (K4 Hb2). lia.
           ++ destruct b as [|b]; [lia|]. cbn [firstn]. rewrite firstn_app.
              rewrite (firstn_all2 B) by lia. replace (b - length B)%nat with b1 by lia.
              rewrite <- !app_assoc in K5. exact K5.
        -- subst b1. destruct fuel as [|fuel]; [cbn in Hfu; lia|]. cbn [enc_outer].
           rewrite andb_false_r.
           conjs; try lia.
           ++ eapply wframe_trans; eauto.
           ++ destruct b as [|b]; [lia|]. cbn [firstn].
              rewrite Nat.sub_succ, Nat.sub_0_r, <- app_assoc in J3. exact J3.
      * rewrite etail_none in * by auto. cbn [fst snd length] in *.
        conjs; auto; try lia. destruct b as [|b]; [lia|]. cbn [firstn]. rewrite firstn_nil. auto.
Qed.

Lemma ecode_S k kmin n data : (kmin < S k)%nat ->
  ecode (S k) kmin n data =
    firstn n (plane data k) ++ fst (etail false (skipn n (plane data k))) ++
    ecode k kmin (n + snd (etail false (skipn n (plane data k)))) data.
Proof.
  intros H. cbn [ecode]. apply Nat.ltb_lt in H. rewrite H.
  destruct (etail false (skipn n (plane data k))). reflexivity.
Qed.

Lemma firstn_app_3 {A} b (x y z : list A) :
  firstn b (x ++ y ++ z) = firstn b x ++ firstn (b - length x) y ++ firstn (b - length x - length y) z.
Proof. rewrite !firstn_app. reflexivity. Qed.

Lemma enc_planes_spec : forall k kmin n b data s L,
  (length data <= 64)%nat -> (n <= length data)%nat ->
  wat s L -> (length L + Nat.min b (length (ecode k kmin n data)) <= cap s)%nat ->
  let '(b1, s1) := enc_planes W k kmin (length data) n b data s in
  wframe s s1 /\ cap s1 = cap s /\ b1 = (b - length (ecode k kmin n data))%nat /\
  wat s1 (L ++ firstn b (ecode k kmin n data)).
Proof.
  induction k as [|k IH]; intros kmin n b data s L Hd Hn Hw Hc.
  - cbn. rewrite firstn_nil, app_nil_r. conjs; auto; try lia; apply wframe_refl.
  - cbn [enc_planes].
    destruct (Nat.ltb_spec kmin (S k)) as [Hk|Hk].
    2:{ rewrite andb_false_r. cbn [ecode]. apply Nat.ltb_ge in Hk. rewrite Hk.
        rewrite firstn_nil, app_nil_r. cbn. conjs; auto; try lia; apply wframe_refl. }
    destruct (Nat.eqb_spec b 0) as [->|Hb].
    { cbn [andb negb firstn]. rewrite app_nil_r. conjs; auto; try lia; apply wframe_refl. }
    cbn [andb negb]. rewrite extract_plane_spec by auto.
    rewrite ecode_S in * by auto.
    set (p := plane data k) in *. assert (length p = length data) as Lp by apply plane_length.
    rewrite !app_length in Hc. rewrite (firstn_length_le p) in Hc by lia.
    set (E := fst (etail false (skipn n p))) in *. set (c := snd (etail false (skipn n p))) in *.
    set (R := ecode k kmin (n + c) data) in *.
    pose proof (bitsz_bound p) as Hbd. rewrite Lp in Hbd.
    assert (2 ^ Z.of_nat (length data) <= 2 ^ 64).
    { change 64 with (Z.of_nat 64). apply Z.pow_le_mono_r; lia. }
    pose proof (wbs s L (bitsz p) (Nat.min n b) Hw ltac:(lia) ltac:(lia) ltac:(lia)) as Q.
    destruct (stream_write_bits W s (bitsz p) (Nat.min n b)) as [x s1].
    destruct Q as (-> & Q1 & Q2 & Q3).
    assert (zbits (Nat.min n b) (bitsz p) = firstn (Nat.min n b) p) as Ez.
    { rewrite <- (zbits_bitsz p) at 2. rewrite firstn_zbits; auto. lia. }
    rewrite Ez in Q1.
    assert (c <= length (skipn n p))%nat as Hcl.
    { unfold c. clear. generalize false. induction (skipn n p) as [|x l IHl]; intros i; [cbn; lia|].
      rewrite etail_unfold. cbv zeta.
      assert (snd (match l with [] => ([], 1%nat) | _ => let '(e, c) := etail (negb x) l in (x :: e, S c) end)
              <= length (x :: l))%nat.
      { destruct l; [cbn; lia|]. specialize (IHl (negb x)).
        destruct (etail (negb x) (b :: l)). cbn in *. lia. }
      destruct i; auto. destruct (existsb id (x :: l)); cbn [snd]; auto. lia. }
    rewrite skipn_length, Lp in Hcl.
    destruct (le_lt_dec n b) as [Hnb|Hnb].
    + rewrite Nat.min_l in * by lia.
      assert (bitsz p / 2 ^ Z.of_nat n = bitsz (skipn n p)) as ->.
      { symmetry. apply bitsz_skipn. lia. }
      pose proof (enc_outer_spec (S (length data)) (skipn n p) (length data) n (b - n)%nat s1 (L ++ firstn n p)) as O.
      rewrite skipn_length, Lp, app_length, (firstn_length_le p) in O by lia. fold E c in O.
      specialize (O ltac:(lia) ltac:(lia) Q1 ltac:(lia)).
      destruct (enc_outer W (S (length data)) (length data) n (b - n) (bitsz (skipn n p)) s1) as [[n2 b2] s2].
      destruct O as (O1 & O2 & O3 & O4 & O5).
      destruct (Nat.eq_dec b2 0) as [E0|E0].
      * rewrite E0 in *. assert (forall kk, enc_planes W kk kmin (length data) n2 0 data s2 = (0%nat, s2)) as ->.
        { intros [|]; reflexivity. }
        rewrite !app_length, (firstn_length_le p) by lia. fold R. conjs; try lia.
        -- eapply wframe_trans; eauto.
        -- rewrite firstn_app_3, (firstn_length_le p) by lia.
           rewrite (firstn_all2 (firstn n p)) by (rewrite firstn_length_le; lia).
           replace (b - n - length E)%nat with 0%nat by lia. cbn [firstn].
           rewrite app_nil_r, app_assoc. exact O5.
      * rewrite (O4 E0).
        specialize (IH kmin (n + c)%nat b2 data s2 _ Hd ltac:(lia) O5).
        fold R in IH. rewrite !app_length, !firstn_length in IH.
        specialize (IH ltac:(rewrite O2, Q3; lia)).
        destruct (enc_planes W k kmin (length data) (n + c) b2 data s2) as [b3 s3].
        destruct IH as (K1 & K2 & K3 & K4).
        rewrite !app_length, (firstn_length_le p) by lia. conjs; try lia.
        -- eapply wframe_trans; [exact HW|exact Q2|]. eapply wframe_trans; eauto.
        -- rewrite firstn_app_3, (firstn_length_le p) by lia.
           rewrite (firstn_all2 (firstn n p)) by (rewrite firstn_length_le; lia).
           rewrite <- !app_assoc in K4. replace (b - n - length E)%nat with b2 by lia. exact K4.
    + rewrite Nat.min_r in * by lia. rewrite Nat.sub_diag.
      assert (forall f x, enc_outer W (S f) (length data) n 0 x s1 = (n, 0%nat, s1)) as ->.
      { intros. cbn [enc_outer]. rewrite andb_false_r. reflexivity. }
      assert (forall kk, enc_planes W kk kmin (length data) n 0 data s1 = (0%nat, s1)) as ->.
      { intros [|]; reflexivity. }
      rewrite !app_length, (firstn_length_le p) by lia. conjs; auto; try lia.
      rewrite firstn_app_3, (firstn_length_le p), firstn_firstn, Nat.min_l by lia.
      replace (b - n)%nat with 0%nat by lia. cbn [firstn Nat.sub]. rewrite !app_nil_r. exact Q1.
Qed.

End W.
