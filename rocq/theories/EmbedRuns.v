(** Encoding and decoding sessions: from the refinement lemmas to statements about
    whole calls. *)
From Coq Require Import ZArith Lia List Bool Arith.
From Verif Require Import ListAux Bits Bitstream BitstreamProofs BitstreamProofs2 StreamSpec StreamRuns.
From Verif Require Import EmbedSpec ZfpCodec ZfpCodecProofs ZfpCodecProofs2 ZfpCodecProofs3 EmbedProofs.
Import ListNotations.
Local Open Scope Z_scope.

(** ** Size of the code *)
Lemma etail_true_bound : forall l, existsb id l = true ->
  (length (fst (etail true l)) + 1 + (if (snd (etail true l) =? length l)%nat then 1 else 0)
   <= length l + snd (etail true l))%nat.
Proof.
  assert (forall l, (existsb id l = true ->
     (length (fst (etail true l)) + 1 + (if (snd (etail true l) =? length l)%nat then 1 else 0)
      <= length l + snd (etail true l))%nat) /\
    (l <> [] -> (length (fst (etail false l)) + (if (snd (etail false l) =? length l)%nat then 1 else 0)
      <= length l + snd (etail false l))%nat)) as H; [|apply H].
  induction l as [|x l [IH1 IH2]]; [split; [discriminate|congruence]|].
  assert (existsb id (x :: l) = true ->
    (length (fst (etail true (x :: l))) + 1 + (if (snd (etail true (x :: l)) =? length (x :: l))%nat then 1 else 0)
      <= length (x :: l) + snd (etail true (x :: l)))%nat) as G.
  { intros Hex. destruct l as [|y l]; [cbn; lia|].
    rewrite etail_run. destruct (etail (negb x) (y :: l)) as [e c] eqn:Ee. cbn [fst snd].
    destruct x; cbn [negb] in Ee; rewrite Ee in *; cbn [fst snd] in *.
    - specialize (IH2 ltac:(congruence)).
      destruct (Nat.eqb_spec c (length (y :: l))), (Nat.eqb_spec (S c) (length (true :: y :: l))); cbn [length] in *; lia.
    - specialize (IH1 Hex).
      destruct (Nat.eqb_spec c (length (y :: l))), (Nat.eqb_spec (S c) (length (false :: y :: l))); cbn [length] in *; lia. }
  split; [exact G|]. intros _. destruct (existsb id (x :: l)) eqn:E.
  - rewrite etail_out by (auto; congruence). cbn [fst snd].
    set (e := fst (etail true (x :: l))) in *. cbn [length] in *. specialize (G eq_refl). lia.
  - rewrite etail_none by (auto; congruence). cbn. lia.
Qed.

Lemma etail_bound l : l <> [] ->
  (length (fst (etail false l)) + (if (snd (etail false l) =? length l)%nat then 1 else 0)
   <= length l + snd (etail false l))%nat.
Proof.
  intros Hl. destruct (existsb id l) eqn:E.
  - rewrite etail_out by auto. cbn [fst snd length]. pose proof (etail_true_bound l E). lia.
  - rewrite etail_none by auto. destruct l; [congruence|]. cbn. lia.
Qed.

Lemma ecode_bound data : forall k kmin n, (n <= length data)%nat ->
  (length (ecode k kmin n data) <= (k - kmin) * length data + (length data - n - 1))%nat.
Proof.
  induction k as [|k IH]; intros kmin n Hn; [cbn; lia|].
  destruct (Nat.ltb_spec kmin (S k)) as [Hk|Hk].
  2:{ cbn [ecode]. apply Nat.ltb_ge in Hk. rewrite Hk. cbn. lia. }
  rewrite ecode_S by auto. set (p := plane data k).
  assert (length p = length data) as Lp by apply plane_length.
  rewrite !app_length, firstn_length_le by lia.
  pose proof (etail_count false (skipn n p)) as Hc. rewrite skipn_length, Lp in Hc.
  specialize (IH kmin (n + snd (etail false (skipn n p)))%nat ltac:(lia)).
  replace (S k - kmin)%nat with (S (k - kmin)) by lia. cbn [Nat.mul].
  destruct (Nat.eq_dec n (length data)) as [En|En].
  - assert (skipn n p = []) as E by (apply skipn_all2; lia). rewrite E in *. cbn [etail fst snd length] in *. lia.
  - assert (skipn n p <> []) as Hne by (intros E; apply (f_equal (@length bool)) in E; rewrite skipn_length in E; cbn in E; lia).
    pose proof (etail_bound _ Hne) as B. rewrite skipn_length, Lp in B.
    destruct (Nat.eqb_spec (snd (etail false (skipn n p))) (length data - n)); lia.
Qed.

Lemma kmin_prec P maxprec : (P - kmin_of P maxprec = Nat.min P maxprec)%nat.
Proof. unfold kmin_of. destruct (Nat.ltb_spec maxprec P); lia. Qed.

Lemma ecode_full P maxprec data : data <> [] ->
  (length (ecode P (kmin_of P maxprec) 0 data) <= full_bits (Nat.min P maxprec) (length data))%nat.
Proof.
  intros Hd. pose proof (ecode_bound data P (kmin_of P maxprec) 0 ltac:(lia)) as H.
  rewrite kmin_prec in H. unfold full_bits. destruct data; [congruence|]. cbn [length] in *. lia.
Qed.

(** the code at lower precision is a prefix *)
Lemma ecode_prefix data : forall k q kmin n, (kmin <= q)%nat ->
  exists r, ecode k kmin n data = ecode k q n data ++ r.
Proof.
  induction k as [|k IH]; intros q kmin n Hq; [exists []; auto|].
  destruct (Nat.ltb_spec q (S k)) as [Hk|Hk].
  - rewrite !ecode_S by lia. destruct (IH q kmin (n + snd (etail false (skipn n (plane data k))))%nat Hq) as [r ->].
    exists r. rewrite <- !app_assoc. auto.
  - exists (ecode (S k) kmin n data). cbn [ecode]. apply Nat.ltb_ge in Hk. rewrite Hk. auto.
Qed.

Section W.
Variable W : nat.
Hypothesis HW : (1 <= W <= 64)%nat.
Notation wat := (wat W).
Notation cap := (cap W).
Notation rat := (rat W).
Notation put := (put W).

(** ** [put] *)
Lemma all_bits_put l : all_bits (map PutBit l) = l.
Proof. unfold all_bits. rewrite map_map. induction l; auto. cbn in *. congruence. Qed.
Lemma total_put l : total (map PutBit l) = length l.
Proof. rewrite <- (all_bits_length (map PutBit l)), all_bits_put. auto. Qed.
Lemma ok_put l : Forall op_ok (map PutBit l).
Proof. induction l; constructor; auto. exact I. Qed.

Lemma put_app s a b : put s (a ++ b) = put (put s a) b.
Proof. unfold StreamSpec.put, do_writes. rewrite map_app, fold_left_app. auto. Qed.
Lemma put_nil s : put s [] = s.
Proof. reflexivity. Qed.

Lemma put_wrote s L l : wat s L -> (length L + length l <= cap s)%nat -> wrote W s L (put s l) l.
Proof.
  intros Hw Hc. destruct (do_writes_spec W HW (map PutBit l) s L Hw (ok_put l)) as [A B].
  { rewrite total_put. exact Hc. }
  rewrite all_bits_put in A. unfold wrote. conjs; auto. unfold ZfpCodecProofs.cap, StreamSpec.put. destruct B as [-> _]. auto.
Qed.

Lemma wrote_put s L s' l : wat s L -> (length L + length l <= cap s)%nat -> wrote W s L s' l -> s' = put s l.
Proof.
  intros Hw Hc H. pose proof (put_wrote s L l Hw Hc) as H2.
  eapply (wrote_unique W HW); [|exact H|exact H2].
  destruct H as (_ & _ & _ & -> & _). destruct H2 as (_ & _ & _ & -> & _). auto.
Qed.

Lemma write_bits_put s L v n : wat s L -> 0 <= v < 2 ^ 64 -> (n <= 64)%nat -> (length L + n <= cap s)%nat ->
  snd (stream_write_bits W s v n) = put s (op_bits (PutBits v n)).
Proof.
  intros Hw Hv Hn Hc. assert (length (op_bits (PutBits v n)) = n) as Ln by (cbn; rewrite map_length, seq_length; auto).
  apply (wrote_put s L); auto; [rewrite Ln; auto|].
  destruct (do_write_spec W HW s L (PutBits v n) Hw ltac:(cbn; auto) Hc) as [A B].
  unfold wrote. conjs; auto. unfold ZfpCodecProofs.cap. destruct B as [B _]. cbn [do_write] in B. rewrite B. auto.
Qed.

Lemma write_bit_put s b : snd (stream_write_bit W s b) = put s [b].
Proof. reflexivity. Qed.

Lemma pad_put s L n : wat s L -> (length L + n <= cap s)%nat ->
  stream_pad W s n = put s (repeat false n).
Proof.
  intros Hw Hc. apply (wrote_put s L); auto; [rewrite repeat_length; auto|].
  destruct (do_write_spec W HW s L (Pad n) Hw I Hc) as [A B].
  unfold wrote. conjs; auto. unfold ZfpCodecProofs.cap. destruct B as [B _]. cbn [do_write] in B. rewrite B. auto.
Qed.

Lemma encode_ints_put P s L maxbits maxprec data :
  (length data <= 64)%nat -> wat s L ->
  let B := firstn maxbits (ecode P (kmin_of P maxprec) 0 data) in
  (length L + length B <= cap s)%nat ->
  encode_ints W P s maxbits maxprec data = (length B, put s B).
Proof.
  intros Hd Hw B Hc. pose proof (encode_ints_spec W HW P s L maxbits maxprec data Hd Hw) as R.
  fold B in R. unfold B in Hc. rewrite firstn_length in Hc. specialize (R Hc).
  destruct (encode_ints W P s maxbits maxprec data) as [c s']. destruct R as [R ->].
  f_equal. apply (wrote_put s L); auto. unfold B. rewrite firstn_length. auto.
Qed.

Lemma encode_many_ints_put P s L maxbits maxprec data :
  wat s L ->
  let B := firstn maxbits (ecode P (kmin_of P maxprec) 0 data) in
  (length L + length B <= cap s)%nat ->
  encode_many_ints W P s maxbits maxprec data = (length B, put s B).
Proof.
  intros Hw B Hc. pose proof (encode_many_ints_spec W HW P s L maxbits maxprec data Hw) as R.
  fold B in R. unfold B in Hc. rewrite firstn_length in Hc. specialize (R Hc).
  destruct (encode_many_ints W P s maxbits maxprec data) as [c s']. destruct R as [R ->].
  f_equal. apply (wrote_put s L); auto. unfold B. rewrite firstn_length. auto.
Qed.

(** ** A written region, read back *)
(** [readable m pos B s]: reader s stands at bit pos of memory m and the bits B come next *)
Definition readable (m : list Z) (pos : nat) (B : list bool) (s : stream) : Prop :=
  rat m pos s /\ (pos + length B <= W * length m)%nat /\ firstn (length B) (skipn pos (membits W m)) = B.

Lemma readable_rest m pos B s : readable m pos B s -> exists rest, skipn pos (membits W m) = B ++ rest.
Proof.
  intros (_ & _ & E). exists (skipn (length B) (skipn pos (membits W m))).
  rewrite <- E at 1. symmetry. apply firstn_skipn.
Qed.

Lemma readable_intro m pos B s rest : rat m pos s -> skipn pos (membits W m) = B ++ rest -> (pos <= W * length m)%nat ->
  readable m pos B s.
Proof.
  intros Hr E Hp. unfold readable. conjs; auto.
  - pose proof (f_equal (@length bool) E) as L. rewrite skipn_length, app_length, membits_length in L by auto. lia.
  - rewrite E, firstn_app, Nat.sub_diag. cbn [firstn]. rewrite app_nil_r. apply firstn_all2. lia.
Qed.

Lemma flush_readable buf off B : wfmem W buf -> (off + length B <= W * length buf)%nat ->
  let s := snd (stream_flush W (put (stream_wseek W (stream_open buf) off) B)) in
  readable (mem s) off B (stream_rseek W s off) /\ fault s = false /\ length (mem s) = length buf /\
  firstn off (membits W (mem s)) = firstn off (membits W buf).
Proof.
  intros Hb Hc. pose proof (write_session W HW buf off (map PutBit B) Hb (ok_put B)) as S.
  rewrite total_put, all_bits_put in S. specialize (S Hc).
  unfold StreamSpec.put. destruct (stream_flush W _) as [k s]. cbn [snd].
  destruct S as (S1 & S2 & S3 & S4 & S5 & S6 & S7 & S8).
  assert (length (firstn off (membits W buf)) = off) as L0.
  { rewrite firstn_length_le; auto. rewrite membits_length by auto. lia. }
  conjs; auto.
  - eapply readable_intro.
    + apply rat_rseek; auto. lia.
    + rewrite S7, skipn_app, L0, Nat.sub_diag, skipn_all2 by lia. reflexivity.
    + lia.
  - rewrite S7, firstn_app, L0, Nat.sub_diag. cbn [firstn]. rewrite app_nil_r. apply firstn_all2. lia.
Qed.

(** decoding a readable code *)
Definition decoded (P maxprec maxbits : nat) (data data' : list Z) : Prop :=
  length data' = length data /\ Forall (fun d => 0 <= d < 2 ^ Z.of_nat P) data' /\
  forall q, (kmin_of P maxprec <= q <= P)%nat ->
    ((length (ecode P q 0 data) <= maxbits)%nat ->
      forall i, (i < length data)%nat -> nth i data' 0 / 2 ^ Z.of_nat q = nth i data 0 / 2 ^ Z.of_nat q) /\
    ((maxbits <= length (ecode P q 0 data) \/ q = kmin_of P maxprec)%nat ->
      forall i, (i < length data)%nat -> nth i data' 0 mod 2 ^ Z.of_nat q = 0).

Lemma decode_result_readable P maxbits maxprec data m pos s :
  data <> [] -> Forall (fun d => 0 <= d < 2 ^ Z.of_nat P) data ->
  readable m pos (firstn maxbits (ecode P (kmin_of P maxprec) 0 data)) s ->
  exists data',
    decode_result W P m pos maxbits maxprec (length data) =
    (length (firstn maxbits (ecode P (kmin_of P maxprec) 0 data)), data',
     (pos + length (firstn maxbits (ecode P (kmin_of P maxprec) 0 data)))%nat) /\
    decoded P maxprec maxbits data data'.
Proof.
  intros Hne Hr Hrd. set (kmin := kmin_of P maxprec) in *. set (C := ecode P kmin 0 data) in *.
  set (size := length data). assert (1 <= size)%nat as Hs by (unfold size; destruct data; [congruence|cbn; lia]).
  assert (kmin <= P)%nat as HkP by (unfold kmin, kmin_of; destruct (Nat.ltb_spec maxprec P); lia).
  assert (exists ps inp', dcode P kmin size 0 maxbits (skipn pos (membits W m)) =
      (ps, (maxbits - length (firstn maxbits C))%nat, inp') /\ (length ps <= P - kmin)%nat /\
      forall q, (kmin <= q <= P)%nat ->
       ((length (ecode P q 0 data) <= maxbits)%nat -> firstn (P - q) ps = planes data P q) /\
       ((maxbits <= length (ecode P q 0 data))%nat -> (length ps <= P - q)%nat)) as (ps & inp' & D & Lps & Hq).
  { destruct (le_lt_dec (length C) maxbits) as [Hl|Hl].
    - destruct (readable_rest _ _ _ _ Hrd) as [rest E]. rewrite firstn_all2 in * by lia. rewrite E.
      rewrite (dcode_ecode data size eq_refl Hs) by (fold C; lia). fold C.
      exists (planes data P kmin), rest. rewrite planes_length. conjs; auto.
      intros q Hq0. split.
      + intros _. unfold planes. rewrite firstn_map. f_equal.
        replace (P - kmin)%nat with ((q - kmin) + (P - q))%nat by lia.
        rewrite seq_app, rev_app_distr, firstn_app, rev_length, seq_length, Nat.sub_diag. cbn [firstn].
        rewrite app_nil_r, firstn_all2 by (rewrite rev_length, seq_length; auto). do 2 f_equal. lia.
      + intros H. destruct (ecode_prefix data P q kmin 0 ltac:(lia)) as [r Er]. fold C in Er.
        assert (length r = 0)%nat as Lr by (apply (f_equal (@length bool)) in Er; rewrite app_length in Er; lia).
        destruct (Nat.eq_dec q kmin) as [->|]; [lia|exfalso].
        (* a lower plane always costs a bit *)
        assert (forall k n, (n <= size)%nat -> (q <= k)%nat -> (length (ecode k q n data) < length (ecode k kmin n data))%nat) as Hlt.
        { induction k as [|k IHk]; intros n0 Hn0 Hk; [lia|].
          assert (length (plane data k) = size) as Lp by apply plane_length.
          pose proof (ecode_plane_pos n0 (plane data k) ltac:(destruct (plane data k); [cbn in Lp; lia|congruence]) ltac:(lia)) as Hpp.
          pose proof (etail_count false (skipn n0 (plane data k))) as Hcc. rewrite skipn_length, Lp in Hcc.
          destruct (Nat.eq_dec q (S k)) as [->|].
          - rewrite (ecode_S k kmin) by lia. cbn [ecode]. rewrite Nat.ltb_irrefl. rewrite !app_length. cbn [length]. lia.
          - rewrite !ecode_S by lia. rewrite !app_length.
            specialize (IHk (n0 + snd (etail false (skipn n0 (plane data k))))%nat ltac:(lia) ltac:(lia)). lia. }
        specialize (Hlt P 0%nat ltac:(lia) ltac:(lia)). fold C in Hlt. lia.
    - destruct Hrd as (_ & _ & E). rewrite firstn_length_le in E by lia.
      destruct (dcode_cut data size eq_refl Hs P kmin 0 maxbits (skipn pos (membits W m)) ltac:(lia) ltac:(fold C; lia) E) as (ps & D & Lps & Hq).
      exists ps, (skipn maxbits (skipn pos (membits W m))). rewrite firstn_length_le by lia. rewrite Nat.sub_diag. auto. }
  assert (Forall (fun p => length p = size) ps) as Hps.
  { pose proof (dcode_planes_length P kmin size 0 maxbits (skipn pos (membits W m)) ltac:(lia)) as H.
    rewrite D in H. exact H. }
  exists (assemble P ps (repeat 0 size)).
  unfold decode_result. fold kmin. rewrite D.
  assert (length (firstn maxbits C) <= maxbits)%nat as Hfl by (rewrite firstn_length; lia).
  replace (maxbits - (maxbits - length (firstn maxbits C)))%nat with (length (firstn maxbits C)) by lia.
  split; auto.
  assert (length (assemble P ps (repeat 0 size)) = size) as La by (rewrite assemble_length, repeat_length; auto).
  assert (Forall (fun d => 0 <= d < 2 ^ Z.of_nat P) (assemble P ps (repeat 0 size))) as Ra.
  { apply assemble_range; auto. apply repeat_roomy; auto. rewrite repeat_length. auto. }
  assert (forall i q, (i < size)%nat -> (q < P)%nat ->
    Z.testbit (nth i (assemble P ps (repeat 0 size)) 0) (Z.of_nat q) = bit_of ps (P - 1 - q) i) as Bits.
  { intros i q Hi Hq1. rewrite (assemble_bits P); auto.
    - destruct (Nat.ltb_spec q P); [auto|lia].
    - apply repeat_roomy; auto.
    - rewrite repeat_length. auto.
    - lia.
    - rewrite repeat_length. auto. }
  split; [auto|]. split; auto. intros q Hq0. destruct (Hq q Hq0) as [Q1 Q2]. split.
  - intros Hle i Hi. fold size in Hi. specialize (Q1 Hle). apply bits_ge_div; [lia|]. intros j Hj.
    destruct (Z.lt_ge_cases j (Z.of_nat P)) as [HjP|HjP].
    + replace j with (Z.of_nat (Z.to_nat j)) by lia. rewrite Bits by lia.
      unfold bit_of. rewrite <- plane_nth by auto. f_equal.
      transitivity (nth (P - 1 - Z.to_nat j) (planes data P q) []).
      * rewrite <- Q1. symmetry. apply nth_firstn_lt. lia.
      * rewrite planes_nth by lia. f_equal. lia.
    + rewrite !(testbit_high _ P); auto; [rewrite Forall_forall in Hr; apply Hr, nth_In; auto|].
      rewrite Forall_forall in Ra. apply Ra, nth_In. lia.
  - intros Hor i Hi. assert (length ps <= P - q)%nat as Lq by (destruct Hor as [H|H]; [auto|subst q; auto]).
    apply bits_lt_mod; [lia|]. intros j Hj. replace j with (Z.of_nat (Z.to_nat j)) by lia. rewrite Bits by (fold size in Hi; lia).
    unfold bit_of. rewrite (nth_overflow ps) by lia. destruct i; reflexivity.
Qed.

Lemma decode_ints_readable P maxbits maxprec data m pos s :
  data <> [] -> (length data <= 64)%nat -> Forall (fun d => 0 <= d < 2 ^ Z.of_nat P) data ->
  let B := firstn maxbits (ecode P (kmin_of P maxprec) 0 data) in
  readable m pos B s ->
  let '(c, data', s') := decode_ints W P s maxbits maxprec (length data) in
  c = length B /\ decoded P maxprec maxbits data data' /\ rat m (pos + length B) s' /\
  decode_many_ints W P s maxbits maxprec (length data) = (c, data', s').
Proof.
  intros Hne Hl Hr B Hrd.
  destruct (decode_result_readable P maxbits maxprec data m pos s Hne Hr Hrd) as (data' & E & D).
  pose proof (decode_ints_spec W HW P m pos s maxbits maxprec (length data) Hl (proj1 Hrd)) as R.
  pose proof (decode_many_ints_spec W HW P m pos s maxbits maxprec (length data) (proj1 Hrd)) as R2.
  rewrite E in R, R2. fold B in R, R2. destruct Hrd as (_ & Hc & _). specialize (R Hc). specialize (R2 Hc).
  destruct (decode_ints W P s maxbits maxprec (length data)) as [[c1 d1] s1].
  destruct (decode_many_ints W P s maxbits maxprec (length data)) as [[c2 d2] s2].
  destruct R as (-> & -> & R), R2 as (-> & -> & R2). conjs; auto.
  f_equal. eapply (rat_unique W HW); eauto.
Qed.

Lemma decode_many_ints_readable P maxbits maxprec data m pos s :
  data <> [] -> Forall (fun d => 0 <= d < 2 ^ Z.of_nat P) data ->
  let B := firstn maxbits (ecode P (kmin_of P maxprec) 0 data) in
  readable m pos B s ->
  let '(c, data', s') := decode_many_ints W P s maxbits maxprec (length data) in
  c = length B /\ decoded P maxprec maxbits data data' /\ rat m (pos + length B) s'.
Proof.
  intros Hne Hr B Hrd.
  destruct (decode_result_readable P maxbits maxprec data m pos s Hne Hr Hrd) as (data' & E & D).
  pose proof (decode_many_ints_spec W HW P m pos s maxbits maxprec (length data) (proj1 Hrd)) as R2.
  rewrite E in R2. fold B in R2. destruct Hrd as (_ & Hc & _). specialize (R2 Hc).
  destruct (decode_many_ints W P s maxbits maxprec (length data)) as [[c2 d2] s2].
  destruct R2 as (-> & -> & R2). conjs; auto.
Qed.

(** what [decoded] means when the budget was enough *)
Lemma decoded_full P maxprec maxbits data data' :
  (length (ecode P (kmin_of P maxprec) 0 data) <= maxbits)%nat ->
  decoded P maxprec maxbits data data' -> data' = map (keep_top P maxprec) data.
Proof.
  intros Hl (L & R & Q). assert (kmin_of P maxprec <= P)%nat as HkP by (unfold kmin_of; destruct (Nat.ltb_spec maxprec P); lia).
  destruct (Q (kmin_of P maxprec) ltac:(lia)) as [Q1 Q2]. specialize (Q1 Hl). specialize (Q2 (or_intror eq_refl)).
  assert (keep_top P maxprec 0 = 0) as K0 by (unfold keep_top; rewrite Z.mod_0_l; [lia|]; apply Z.pow_nonzero; lia).
  apply (nth_ext _ _ 0 0); [rewrite map_length; auto|]. intros i Hi. rewrite L in Hi.
  rewrite <- K0 at 2. rewrite map_nth. unfold keep_top.
  assert (P - maxprec = kmin_of P maxprec)%nat as -> by (unfold kmin_of; destruct (Nat.ltb_spec maxprec P); lia).
  specialize (Q1 i Hi). specialize (Q2 i Hi).
  set (p := 2 ^ Z.of_nat (kmin_of P maxprec)) in *. assert (0 < p) by (apply pow2_pos; lia).
  rewrite (Z.div_mod (nth i data' 0) p), (Z.div_mod (nth i data 0) p) at 1 by lia. rewrite Q1, Q2. lia.
Qed.

(** decoders on arbitrary readable memory *)
Lemma decoders_agree P m pos s maxbits maxprec size :
  (size <= 64)%nat -> rat m pos s -> (pos + maxbits <= W * length m)%nat ->
  decode_ints W P s maxbits maxprec size = decode_many_ints W P s maxbits maxprec size.
Proof.
  intros Hs Hr Hc.
  pose proof (decode_ints_spec W HW P m pos s maxbits maxprec size Hs Hr) as R.
  pose proof (decode_many_ints_spec W HW P m pos s maxbits maxprec size Hr) as R2.
  destruct (decode_result W P m pos maxbits maxprec size) as [[c d] p'] eqn:E.
  assert (p' <= W * length m)%nat as Hp.
  { unfold decode_result in E. destruct (dcode P _ size 0 maxbits _) as [[ps b] i]. inversion E; subst. lia. }
  specialize (R Hp). specialize (R2 Hp).
  destruct (decode_ints W P s maxbits maxprec size) as [[c1 d1] s1].
  destruct (decode_many_ints W P s maxbits maxprec size) as [[c2 d2] s2].
  destruct R as (-> & -> & R), R2 as (-> & -> & R2). f_equal. eapply (rat_unique W HW); eauto.
Qed.

Lemma decode_any P m pos s maxbits maxprec size :
  rat m pos s -> (pos + maxbits <= W * length m)%nat ->
  let '(c, data, s') := decode_many_ints W P s maxbits maxprec size in
  (c <= maxbits)%nat /\ length data = size /\ Forall (fun d => 0 <= d < 2 ^ Z.of_nat P) data /\ rat m (pos + c) s'.
Proof.
  intros Hr Hc.
  pose proof (decode_many_ints_spec W HW P m pos s maxbits maxprec size Hr) as R2.
  unfold decode_result in R2.
  pose proof (dcode_planes_length P (kmin_of P maxprec) size 0 maxbits (skipn pos (membits W m)) ltac:(lia)) as H.
  destruct (dcode P (kmin_of P maxprec) size 0 maxbits _) as [[ps b] i]. cbn [fst] in H.
  specialize (R2 ltac:(lia)).
  destruct (decode_many_ints W P s maxbits maxprec size) as [[c2 d2] s2].
  destruct R2 as (-> & -> & R2). conjs; auto; [lia|rewrite assemble_length, repeat_length; auto|].
  apply assemble_range; auto. apply repeat_roomy; auto. rewrite repeat_length. auto.
Qed.

End W.
