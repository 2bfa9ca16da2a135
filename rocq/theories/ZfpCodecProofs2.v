(** encode_many_ints writes the same code as encode_ints. *)
From Coq Require Import ZArith Lia List Bool Arith.
From Verif Require Import ListAux Bits Bitstream BitstreamProofs BitstreamProofs2 StreamSpec StreamRuns.
From Verif Require Import EmbedSpec ZfpCodec ZfpCodecProofs.
Import ListNotations.
Local Open Scope Z_scope.

Definition ones (l : list bool) : nat := length (filter id l).

Lemma ones_existsb l : negb (ones l =? 0)%nat = existsb id l.
Proof.
  induction l as [|b l IH]; [reflexivity|]. unfold ones in *. cbn [filter existsb].
  unfold id at 1 3. destruct b; cbn; auto.
Qed.

Lemma skipn_cons {A} n (l r : list A) x : skipn n l = x :: r -> skipn (S n) l = r /\ nth_error l n = Some x.
Proof.
  revert l; induction n; intros l E; destruct l; try discriminate; cbn in *.
  - injection E as -> ->. auto.
  - apply IHn in E. auto.
Qed.

Lemma data_bit_plane data n k x r : skipn n (plane data k) = x :: r -> data_bit data n k = Some x.
Proof.
  intros E. apply skipn_cons in E. destruct E as [_ E]. unfold plane in E.
  unfold data_bit. rewrite nth_error_map in E. destruct (nth_error data n); [|discriminate].
  cbn in *. rewrite odd_shiftr. congruence.
Qed.

Lemma many_count_spec data m k : many_count data m k = ones (skipn m (plane data k)).
Proof.
  unfold many_count, plane. rewrite skipn_map.
  assert (forall l c, fold_left (fun c d => (c + Z.to_nat (Z.land (Z.shiftr d (Z.of_nat k)) 1))%nat) l c
    = (c + ones (map (fun d => Z.testbit d (Z.of_nat k)) l))%nat) as H.
  { induction l as [|d l IH]; intros c; [cbn; lia|]. cbn [fold_left map]. rewrite IH, land1_testbit.
    unfold ones. cbn [filter]. unfold id at 2. destruct (Z.testbit d (Z.of_nat k)); cbn [length Z.b2z Z.to_nat]; lia. }
  apply H.
Qed.

Lemma etail_count i l : (snd (etail i l) <= length l)%nat.
Proof.
  revert i. induction l as [|x l IHl]; intros i; [cbn; lia|].
  rewrite etail_unfold. cbv zeta.
  assert (snd (match l with [] => ([], 1%nat) | _ => let '(e, c) := etail (negb x) l in (x :: e, S c) end)
          <= length (x :: l))%nat.
  { destruct l; [cbn; lia|]. specialize (IHl (negb x)).
    destruct (etail (negb x) (b :: l)). cbn in *. lia. }
  destruct i; auto. destruct (existsb id (x :: l)); cbn [snd]; auto. lia.
Qed.

Section W.
Variable W : nat.
Hypothesis HW : (1 <= W <= 64)%nat.
Notation wat := (wat W).
Notation cap := (cap W).

Lemma many_write_spec k : forall m data s L,
  (m <= length data)%nat -> wat s L -> (length L + m <= cap s)%nat ->
  let s1 := many_write W data m k s in
  wframe s s1 /\ cap s1 = cap s /\ wat s1 (L ++ firstn m (plane data k)).
Proof.
  induction m as [|m IH]; intros data s L Hm Hw Hc.
  - cbn [many_write]. destruct data; cbn [firstn]; rewrite app_nil_r; conjs; auto; apply wframe_refl.
  - destruct data as [|d data]; [cbn in Hm; lia|]. cbn [many_write plane map firstn].
    rewrite odd_shiftr. pose proof (wb W HW s L (Z.testbit d (Z.of_nat k)) Hw ltac:(lia)) as R.
    destruct (stream_write_bit W s _) as [r s1]. destruct R as (_ & R1 & R2 & R3).
    specialize (IH data s1 _ ltac:(cbn in Hm; lia) R1).
    rewrite app_length in IH. cbn [length] in IH. specialize (IH ltac:(lia)).
    destruct IH as (A & B & C). conjs.
    + eapply wframe_trans; eauto.
    + congruence.
    + rewrite <- app_assoc in C. exact C.
Qed.

Lemma many_inner_spec data k : forall l fuel size n b s L,
  l <> [] -> existsb id l = true -> (length l < fuel)%nat -> (n + length l = size)%nat ->
  skipn n (plane data k) = l ->
  wat s L -> (length L + Nat.min b (length (fst (etail true l))) <= cap s)%nat ->
  let '(n1, b1, s1) := many_inner W fuel size n b k data s in
  wframe s s1 /\ cap s1 = cap s /\
  ((exists l0 l1, l = l0 ++ true :: l1 /\ n1 = (n + length l0)%nat /\ ones l = S (ones l1) /\
      skipn (S n1) (plane data k) = l1 /\
      exists B, fst (etail true l) = B ++ fst (etail false l1) /\
      snd (etail true l) = (length l0 + 1 + snd (etail false l1))%nat /\
      (b1 + length B = b)%nat /\ wat s1 (L ++ B))
   \/ (b1 = 0%nat /\ (b < length (fst (etail true l)))%nat /\ wat s1 (L ++ firstn b (fst (etail true l))))).
Proof.
  induction l as [|x l IH]; intros fuel size n b s L Hne Hex Hfu Hn Hsk Hw Hc; [congruence|].
  destruct fuel as [|fuel]; [lia|]. cbn [many_inner].
  rewrite (data_bit_plane _ _ _ _ _ Hsk). cbn [length] in *.
  destruct (skipn_cons _ _ _ _ Hsk) as [Hsk1 _].
  rewrite etail_unfold in *. cbv zeta in *. cbn iota beta in *.
  destruct l as [|y l].
  - assert (n <? size - 1 = false)%nat as -> by (apply Nat.ltb_ge; cbn in Hn; lia).
    cbn [andb]. split; [apply wframe_refl|]. split; auto. left.
    assert (x = true) as -> by (destruct x; auto; discriminate).
    exists [], []. cbn [length fst snd etail app]. conjs; auto; try lia.
    exists []. cbn [length app]. rewrite app_nil_r. conjs; auto; lia.
  - assert (n <? size - 1 = true)%nat as -> by (apply Nat.ltb_lt; cbn in Hn; lia).
    set (l' := y :: l) in *.
    destruct (etail (negb x) l') as [e c] eqn:Ee. cbn [fst snd length] in *.
    destruct (Nat.eqb_spec b 0) as [->|Hb].
    + cbn [andb negb]. split; [apply wframe_refl|]. split; auto. right.
      cbn [firstn]. rewrite app_nil_r. conjs; auto. lia.
    + cbn [andb negb].
      pose proof (wb W HW s L x Hw) as R. destruct (stream_write_bit W s x) as [r s1].
      destruct R as (-> & R1 & R2 & R3); [lia|].
      destruct x; cbn [negb] in *.
      * split; auto. split; auto. left. exists [], l'. rewrite Ee. cbn [length app fst snd].
        rewrite Nat.add_0_r. conjs; auto; try lia. exists [true]. conjs; auto; cbn; lia.
      * assert (existsb id l' = true) as Hex' by exact Hex.
        specialize (IH fuel size (S n) (b - 1)%nat s1 (L ++ [false]) ltac:(unfold l'; congruence) Hex' ltac:(lia) ltac:(lia) Hsk1 R1).
        rewrite Ee in IH. cbn [fst snd] in IH.
        rewrite app_length in IH. cbn [length] in IH.
        specialize (IH ltac:(rewrite R3; lia)).
        destruct (many_inner W fuel size (S n) (b - 1) k data s1) as [[n1 b1] s2].
        destruct IH as (I1 & I2 & I3).
        split; [eapply wframe_trans; eauto|]. split; [congruence|].
        destruct I3 as [(l0 & l1 & J1 & J2 & J3 & J3' & B & J4 & J5 & J6 & J7)|(J1 & J2 & J3)].
        -- left. exists (false :: l0), l1. cbn [length app].
           conjs; try lia; auto; [congruence|]. exists (false :: B).
           cbn [length app]. conjs; try lia; [congruence|]. rewrite <- app_assoc in J7. exact J7.
        -- right. conjs; auto; try lia. destruct b as [|b]; [lia|]. cbn [firstn].
           rewrite Nat.sub_succ, Nat.sub_0_r, <- app_assoc in J3. exact J3.
Qed.

Lemma many_outer_spec data k : forall fuel l size n b s L,
  (length l < fuel)%nat -> (n + length l = size)%nat -> skipn n (plane data k) = l ->
  wat s L -> (length L + Nat.min b (length (fst (etail false l))) <= cap s)%nat ->
  let '(n1, b1, s1) := many_outer W fuel size n b (ones l) k data s in
  wframe s s1 /\ cap s1 = cap s /\ b1 = (b - length (fst (etail false l)))%nat /\
  (b1 <> 0%nat -> n1 = (n + snd (etail false l))%nat) /\
  wat s1 (L ++ firstn b (fst (etail false l))).
Proof.
  induction fuel as [|fuel IH]; intros l size n b s L Hfu Hn Hsk Hw Hc; [lia|].
  cbn [many_outer].
  destruct l as [|x l].
  - assert (n <? size = false)%nat as -> by (apply Nat.ltb_ge; cbn in Hn; lia).
    cbn. rewrite firstn_nil, app_nil_r. conjs; auto; try lia; apply wframe_refl.
  - set (l' := x :: l) in *. assert (l' <> []) as Hne by (unfold l'; congruence).
    assert (n <? size = true)%nat as -> by (apply Nat.ltb_lt; cbn in Hn; lia).
    destruct (Nat.eqb_spec b 0) as [->|Hb].
    + cbn [andb negb firstn]. rewrite app_nil_r. conjs; auto; try lia; apply wframe_refl.
    + cbn [andb negb]. rewrite ones_existsb.
      assert (1 <= length (fst (etail false l')))%nat as Hlen.
      { destruct (existsb id l') eqn:E; [rewrite etail_out by auto|rewrite etail_none by auto]; cbn; lia. }
      pose proof (wb W HW s L (existsb id l') Hw) as R. destruct (stream_write_bit W s (existsb id l')) as [r s1].
      destruct R as (-> & R1 & R2 & R3); [lia|].
      destruct (existsb id l') eqn:E.
      * rewrite etail_out in * by auto. cbn [fst snd length] in *.
        pose proof (many_inner_spec data k l' (S size) size n (b - 1)%nat s1 (L ++ [true]) Hne E ltac:(lia) Hn Hsk R1) as Q.
        rewrite app_length in Q. cbn [length] in Q. specialize (Q ltac:(rewrite R3; lia)).
        destruct (many_inner W (S size) size n (b - 1) k data s1) as [[n1 b1] s2].
        destruct Q as (I1 & I2 & [(l0 & l1 & J1 & J2 & J3 & J3' & B & J4 & J5 & J6 & J7)|(J1 & J2 & J3)]).
        -- rewrite J3, Nat.sub_succ, Nat.sub_0_r.
           assert (length l' = length l0 + 1 + length l1)%nat as Ll.
           { rewrite J1, app_length. cbn. lia. }
           specialize (IH l1 size (S n1) b1 s2 (L ++ [true] ++ B) ltac:(lia) ltac:(lia) J3').
           rewrite <- app_assoc in J7. specialize (IH J7).
           rewrite !app_length in IH. cbn [length] in IH.
           rewrite J4, app_length in *. specialize (IH ltac:(lia)).
           destruct (many_outer W fuel size (S n1) b1 (ones l1) k data s2) as [[n2 b2] s3].
           destruct IH as (K1 & K2 & K3 & K4 & K5).
           conjs.
           ++ eapply wframe_trans; [exact HW|exact R2|]. eapply wframe_trans; eauto.
           ++ congruence.
           ++ lia.
           ++ intros Hb2. rewrite (K4 Hb2). lia.
           ++ destruct b as [|b]; [lia|]. cbn [firstn]. rewrite firstn_app.
              rewrite (firstn_all2 B) by lia. replace (b - length B)%nat with b1 by lia.
              rewrite <- !app_assoc in K5. exact K5.
        -- subst b1. destruct fuel as [|fuel]; [cbn in Hfu; lia|]. cbn [many_outer].
           rewrite andb_false_r.
           conjs; try lia.
           ++ eapply wframe_trans; eauto.
           ++ destruct b as [|b]; [lia|]. cbn [firstn].
              rewrite Nat.sub_succ, Nat.sub_0_r, <- app_assoc in J3. exact J3.
      * rewrite etail_none in * by auto. cbn [fst snd length] in *.
        conjs; auto; try lia. destruct b as [|b]; [lia|]. cbn [firstn]. rewrite firstn_nil. auto.
Qed.

Lemma many_planes_spec : forall k kmin n b data s L,
  (n <= length data)%nat ->
  wat s L -> (length L + Nat.min b (length (ecode k kmin n data)) <= cap s)%nat ->
  let '(b1, s1) := many_planes W k kmin (length data) n b data s in
  wframe s s1 /\ cap s1 = cap s /\ b1 = (b - length (ecode k kmin n data))%nat /\
  wat s1 (L ++ firstn b (ecode k kmin n data)).
Proof.
  induction k as [|k IH]; intros kmin n b data s L Hn Hw Hc.
  - cbn. rewrite firstn_nil, app_nil_r. conjs; auto; try lia; apply wframe_refl.
  - cbn [many_planes].
    destruct (Nat.ltb_spec kmin (S k)) as [Hk|Hk].
    2:{ rewrite andb_false_r. cbn [ecode]. apply Nat.ltb_ge in Hk. rewrite Hk.
        rewrite firstn_nil, app_nil_r. cbn. conjs; auto; try lia; apply wframe_refl. }
    destruct (Nat.eqb_spec b 0) as [->|Hb].
    { cbn [andb negb firstn]. rewrite app_nil_r. conjs; auto; try lia; apply wframe_refl. }
    cbn [andb negb]. rewrite many_count_spec.
    rewrite ecode_S in * by auto.
    set (p := plane data k) in *. assert (length p = length data) as Lp by apply plane_length.
    rewrite !app_length in Hc. rewrite (firstn_length_le p) in Hc by lia.
    set (E := fst (etail false (skipn n p))) in *. set (c := snd (etail false (skipn n p))) in *.
    set (R := ecode k kmin (n + c) data) in *.
    pose proof (many_write_spec k (Nat.min n b) data s L ltac:(lia) Hw ltac:(lia)) as Q.
    cbv zeta in Q. set (s1 := many_write W data (Nat.min n b) k s) in *.
    destruct Q as (Q2 & Q3 & Q1). fold p in Q1.
    pose proof (etail_count false (skipn n p)) as Hcl. fold c in Hcl.
    rewrite skipn_length, Lp in Hcl.
    destruct (le_lt_dec n b) as [Hnb|Hnb].
    + rewrite Nat.min_l in * by lia.
      pose proof (many_outer_spec data k (S (length data)) (skipn n p) (length data) n (b - n)%nat s1 (L ++ firstn n p)) as O.
      rewrite skipn_length, Lp, app_length, (firstn_length_le p) in O by lia. fold E c in O.
      specialize (O ltac:(lia) ltac:(lia) eq_refl Q1 ltac:(lia)).
      destruct (many_outer W (S (length data)) (length data) n (b - n) (ones (skipn n p)) k data s1) as [[n2 b2] s2].
      destruct O as (O1 & O2 & O3 & O4 & O5).
      destruct (Nat.eq_dec b2 0) as [E0|E0].
      * rewrite E0 in *. assert (forall kk, many_planes W kk kmin (length data) n2 0 data s2 = (0%nat, s2)) as ->.
        { intros [|]; reflexivity. }
        rewrite !app_length, (firstn_length_le p) by lia. fold R. conjs; try lia.
        -- eapply wframe_trans; eauto.
        -- rewrite firstn_app_3, (firstn_length_le p) by (auto; lia).
           rewrite (firstn_all2 (firstn n p)) by (rewrite firstn_length_le; lia).
           replace (b - n - length E)%nat with 0%nat by lia. cbn [firstn].
           rewrite app_nil_r, app_assoc. exact O5.
      * rewrite (O4 E0).
        specialize (IH kmin (n + c)%nat b2 data s2 _ ltac:(lia) O5).
        fold R in IH. rewrite !app_length, !firstn_length in IH.
        specialize (IH ltac:(rewrite O2, Q3; lia)).
        destruct (many_planes W k kmin (length data) (n + c) b2 data s2) as [b3 s3].
        destruct IH as (K1 & K2 & K3 & K4).
        rewrite !app_length, (firstn_length_le p) by lia. conjs; try lia.
        -- eapply wframe_trans; [exact HW|exact Q2|]. eapply wframe_trans; eauto.
        -- rewrite firstn_app_3, (firstn_length_le p) by (auto; lia).
           rewrite (firstn_all2 (firstn n p)) by (rewrite firstn_length_le; lia).
           rewrite <- !app_assoc in K4. replace (b - n - length E)%nat with b2 by lia. exact K4.
    + rewrite Nat.min_r in * by lia. rewrite Nat.sub_diag.
      assert (forall f x, many_outer W (S f) (length data) n 0 x k data s1 = (n, 0%nat, s1)) as ->.
      { intros. cbn [many_outer]. rewrite andb_false_r. reflexivity. }
      assert (forall kk, many_planes W kk kmin (length data) n 0 data s1 = (0%nat, s1)) as ->.
      { intros [|]; reflexivity. }
      rewrite !app_length, (firstn_length_le p) by lia. conjs; auto; try lia.
      rewrite firstn_app_3, (firstn_length_le p), firstn_firstn, Nat.min_l by (auto; lia).
      replace (b - n)%nat with 0%nat by lia. cbn [firstn Nat.sub]. rewrite !app_nil_r. exact Q1.
Qed.

(** ** Whole encoders *)
Definition wrote (s : stream) (L : list bool) (s' : stream) (B : list bool) : Prop :=
  wframe s s' /\ cap s' = cap s /\ wat s' (L ++ B).

Lemma encode_ints_spec P s L maxbits maxprec data :
  (length data <= 64)%nat -> wat s L ->
  (length L + Nat.min maxbits (length (ecode P (kmin_of P maxprec) 0 data)) <= cap s)%nat ->
  let '(c, s') := encode_ints W P s maxbits maxprec data in
  wrote s L s' (firstn maxbits (ecode P (kmin_of P maxprec) 0 data)) /\
  c = length (firstn maxbits (ecode P (kmin_of P maxprec) 0 data)).
Proof.
  intros Hd Hw Hc. unfold encode_ints.
  pose proof (enc_planes_spec W HW P (kmin_of P maxprec) 0 maxbits data s L Hd ltac:(lia) Hw Hc) as R.
  destruct (enc_planes W P (kmin_of P maxprec) (length data) 0 maxbits data s) as [b s'].
  destruct R as (A & B & C & D). unfold wrote. rewrite firstn_length. conjs; auto. lia.
Qed.

Lemma encode_many_ints_spec P s L maxbits maxprec data :
  wat s L ->
  (length L + Nat.min maxbits (length (ecode P (kmin_of P maxprec) 0 data)) <= cap s)%nat ->
  let '(c, s') := encode_many_ints W P s maxbits maxprec data in
  wrote s L s' (firstn maxbits (ecode P (kmin_of P maxprec) 0 data)) /\
  c = length (firstn maxbits (ecode P (kmin_of P maxprec) 0 data)).
Proof.
  intros Hw Hc. unfold encode_many_ints.
  pose proof (many_planes_spec P (kmin_of P maxprec) 0 maxbits data s L ltac:(lia) Hw Hc) as R.
  destruct (many_planes W P (kmin_of P maxprec) (length data) 0 maxbits data s) as [b s'].
  destruct R as (A & B & C & D). unfold wrote. rewrite firstn_length. conjs; auto. lia.
Qed.

Lemma wrote_unique s L s1 s2 B : fault s1 = fault s2 -> wrote s L s1 B -> wrote s L s2 B -> s1 = s2.
Proof.
  intros Hf (F1 & _ & W1) (F2 & _ & W2).
  pose proof (wat_tell W HW _ _ W1) as T1. pose proof (wat_tell W HW _ _ W2) as T2.
  rewrite <- T2 in T1. unfold stream_wtell in T1.
  destruct W1 as (I1 & X1 & P1 & B1), W2 as (I2 & X2 & P2 & B2).
  destruct (pos_unique W HW _ _ _ _ (proj1 I1) (proj1 I2) T1) as [Ep _].
  apply (wstate_unique W HW); auto; try congruence.
  destruct F1 as (_ & _ & S1 & _), F2 as (_ & _ & S2 & _). rewrite S1. rewrite Ep at 1. rewrite <- S2. congruence.
Qed.

End W.
