(** Parallel compression produces the serial stream. *)
From Coq Require Import ZArith List Bool Arith Lia ZifyNat.
From Verif Require Import ListAux Bits Bitstream BitstreamProofs BitstreamProofs2 StreamSpec StreamRuns.
From Verif Require Import ZfpCodec ZfpCodecProofs ZfpCodecProofs2 EmbedRuns ZfpXform ZfpArray ZfpPar ArraySpec ArrayProofs ArrayProofs2 ArrayProofs3.
Import ListNotations.

(** [enc] appends the bits [code q] to the stream *)
Definition appends (W : nat) {A} (enc : stream -> list A -> option stream) (code : list A -> list bool) (ok : list A -> Prop) : Prop :=
  forall s L q, wat W s L -> ok q -> (length L + length (code q) <= cap W s)%nat -> enc s q = Some (put W s (code q)).

Lemma upd_map_seq {B} (g : nat -> B) n c v : (c < n)%nat ->
  upd (map g (seq 0 n)) c v = map (fun i => if (i =? c)%nat then v else g i) (seq 0 n).
Proof.
  intros H. apply nth_ext with (d := v) (d' := v); [rewrite upd_length', !map_length; reflexivity|].
  intros i Hi. rewrite upd_length', map_length, seq_length in Hi.
  rewrite (nth_indep (map (fun i => if (i =? c)%nat then v else g i) _) v ((fun i => if (i =? c)%nat then v else g i) 0%nat)) by (rewrite map_length, seq_length; lia).
  rewrite (map_nth (fun i => if (i =? c)%nat then v else g i)), seq_nth by lia. cbn [Nat.add]. destruct (Nat.eqb_spec i c) as [->|N].
  - apply upd_nth_same. rewrite map_length, seq_length. lia.
  - rewrite upd_nth_other by auto. rewrite (nth_indep _ v (g 0%nat)) by (rewrite map_length, seq_length; lia).
    rewrite map_nth, seq_nth by lia. reflexivity.
Qed.

Lemma nth_error_map_seq {B} (g : nat -> B) n c : (c < n)%nat -> nth_error (map g (seq 0 n)) c = Some (g c).
Proof.
  intros H. rewrite nth_error_map. rewrite (nth_error_nth' _ 0%nat) by (rewrite seq_length; lia). rewrite seq_nth by lia. reflexivity.
Qed.

Lemma offset_mono N chunks a b : (0 < chunks)%nat -> (a <= b)%nat -> (chunk_offset N chunks a <= chunk_offset N chunks b)%nat.
Proof. intros. unfold chunk_offset. apply Nat.div_le_mono; nia. Qed.
Lemma offset_first N chunks : (0 < chunks)%nat -> chunk_offset N chunks 0 = 0%nat.
Proof. intros. unfold chunk_offset. rewrite Nat.mul_0_r. apply Nat.div_0_l. lia. Qed.
Lemma offset_last N chunks : (0 < chunks)%nat -> chunk_offset N chunks chunks = N.
Proof. intros. unfold chunk_offset. apply Nat.div_mul. lia. Qed.

Lemma mul_step a b k : (a < b)%nat -> (a * k + k <= b * k)%nat.
Proof. nia. Qed.

(** every chunk is worked on until it is done *)
Definition complete (N chunks : nat) (sched : list nat) : Prop :=
  Forall (fun c => c < chunks)%nat sched /\
  forall c, (c < chunks)%nat -> count_occ Nat.eq_dec sched c = (chunk_offset N chunks (c + 1) - chunk_offset N chunks c)%nat.

Section Par.
Variable W : nat.
Hypothesis HW : (1 <= W <= 64)%nat.
Variable A : Type.
Variable zero : A.
Variable enc : stream -> list A -> option stream.
Variable junk : list A.
Variable code : list A -> list bool.
Variable ok : list A -> Prop.
Hypothesis HA : appends W enc code ok.
Variable f : field.
Variable m : list A.
Hypothesis HF : fits m (fdata f) (sizes f) (steps f).
Hypothesis HJ : length junk = (4 ^ zfp_field_dimensionality f)%nat.
Hypothesis HD : (1 <= zfp_field_dimensionality f)%nat.
Let N := blocks_in (sizes f).
Notation block b := (array_block zero m (fdata f) (sizes f) (steps f) b).
Hypothesis HO : forall b, (b < N)%nat -> ok (block b).
Let B (b : nat) := code (block b).
Definition bits_from (b n : nat) : list bool := concat (map B (seq b n)).

Lemma bits_from_app b n k : bits_from b (n + k) = bits_from b n ++ bits_from (b + n) k.
Proof. unfold bits_from. rewrite seq_app, map_app, concat_app. reflexivity. Qed.
Lemma bits_from_S b n : bits_from b (n + 1) = bits_from b n ++ B (b + n).
Proof. rewrite bits_from_app. unfold bits_from at 2. cbn. rewrite app_nil_r. reflexivity. Qed.

Lemma for_put n b s L : wat W s L -> (length L + length (bits_from b n) <= cap W s)%nat -> (b + n <= N)%nat ->
  for_ n b (fun b s => enc s (block b)) s = Some (put W s (bits_from b n)).
Proof.
  revert b s L. induction n as [|n IH]; intros b s L Hw Hc Hb; [reflexivity|].
  cbn [for_]. unfold bits_from in *. cbn [seq map concat] in *. rewrite app_length in Hc.
  rewrite (HA s L (block b) Hw (HO b ltac:(lia)) ltac:(fold (B b); lia)). fold (B b). cbn [bind].
  destruct (put_wrote W HW s L (B b) Hw ltac:(lia)) as (_ & C & Hw').
  rewrite (IH (S b) _ _ Hw') by (rewrite ?app_length, ?C; lia). rewrite put_app. reflexivity.
Qed.

Theorem compress_put s L : wat W s L -> (length L + length (bits_from 0 N) <= cap W s)%nat ->
  compress A zero enc junk f m s = Some (put W s (bits_from 0 N)).
Proof.
  intros Hw Hc. rewrite (compress_blocks A zero enc junk m f HF HJ s HD). apply (for_put _ _ _ L); auto.
Qed.

Variable chunks : nat.
Hypothesis HC : (0 < chunks)%nat.
Let lo c := chunk_offset N chunks c.

Lemma lo_le c : (lo c <= lo (c + 1))%nat.
Proof. apply offset_mono; lia. Qed.
Lemma lo_N c : (c <= chunks)%nat -> (lo c <= N)%nat.
Proof. intros. rewrite <- (offset_last N chunks HC). apply offset_mono; lia. Qed.
Lemma bc : block_count f = N. Proof. apply block_count_in. exact HD. Qed.

(** ** copy mode *)
Section Copy.
Variable bufs : list (list Z).
Hypothesis HB : forall c, (c < chunks)%nat -> buffer_ok W (nth c bufs []) /\
  (length (bits_from (lo c) (lo (c + 1) - lo c)) <= W * length (nth c bufs []))%nat.
Let ws (pos : nat -> nat) : list worker :=
  map (fun c => (pos c, put W (stream_open (nth c bufs [])) (bits_from (lo c) (pos c - lo c)))) (seq 0 chunks).

Lemma worker_put c p b : (c < chunks)%nat -> (lo c <= b)%nat -> (b < lo (c + 1))%nat -> p = (b - lo c)%nat ->
  encode_index A zero enc junk f m b (put W (stream_open (nth c bufs [])) (bits_from (lo c) p)) =
  Some (put W (stream_open (nth c bufs [])) (bits_from (lo c) (S b - lo c))).
Proof.
  intros Hc H1 H2 ->. destruct (HB c Hc) as [Hb Hr].
  pose proof (wat_open W HW (nth c bufs []) Hb) as Hw.
  pose proof (lo_N (c + 1) ltac:(lia)).
  assert (E : (lo (c + 1) - lo c = (b - lo c + 1) + (lo (c + 1) - S b))%nat) by lia.
  rewrite E, bits_from_app, app_length, bits_from_S, app_length in Hr.
  replace (lo c + (b - lo c))%nat with b in Hr by lia.
  assert (CP : cap W (stream_open (nth c bufs [])) = (W * length (nth c bufs []))%nat) by reflexivity.
  destruct (put_wrote W HW _ [] (bits_from (lo c) (b - lo c)) Hw ltac:(cbn [length]; lia)) as (_ & C & Hw').
  rewrite (index_ok A zero enc junk m f HF HJ) by (auto; fold N; lia).
  rewrite (HA _ _ _ Hw' (HO b ltac:(lia))) by (cbn [app]; fold (B b); lia). fold (B b).
  replace (S b - lo c)%nat with (b - lo c + 1)%nat by lia. rewrite bits_from_S, put_app.
  replace (lo c + (b - lo c))%nat with b by lia. reflexivity.
Qed.

Lemma run_ok sched : forall pos,
  Forall (fun c => c < chunks)%nat sched ->
  (forall c, (c < chunks)%nat -> lo c <= pos c /\ pos c + count_occ Nat.eq_dec sched c <= lo (c + 1))%nat ->
  run A zero enc junk f m chunks sched (ws pos) = Some (ws (fun c => pos c + count_occ Nat.eq_dec sched c)%nat).
Proof.
  induction sched as [|c sched IH]; intros pos HS HP; cbn [run].
  - apply (f_equal Some). unfold ws. apply map_ext. intros c. cbn [count_occ]. rewrite Nat.add_0_r. reflexivity.
  - pose proof (Forall_inv HS) as Hc. pose proof (Forall_inv_tail HS) as HS'. cbv beta in Hc. unfold work. unfold ws at 1. rewrite nth_error_map_seq by exact Hc.
    rewrite bc. fold (lo (c + 1)). pose proof (HP c Hc) as [P1 P2]. cbn [count_occ] in P2. destruct (Nat.eq_dec c c); [|congruence].
    destruct (Nat.ltb_spec (pos c) (lo (c + 1))); [|lia].
    rewrite (worker_put c _ (pos c)) by (auto; lia). cbn [bind].
    unfold ws at 1. rewrite upd_map_seq by exact Hc.
    set (pos' := fun i => if (i =? c)%nat then S (pos c) else pos i).
    transitivity (run A zero enc junk f m chunks sched (ws pos')).
    { f_equal. unfold ws. apply map_ext. intros i. unfold pos'. destruct (Nat.eqb_spec i c) as [->|Ne]; reflexivity. }
    rewrite IH; [|exact HS'|].
    + apply (f_equal Some). unfold ws. apply map_ext. intros i. unfold pos'. cbn [count_occ].
      destruct (Nat.eqb_spec i c) as [->|Ne].
      * destruct (Nat.eq_dec c c); [|congruence]. replace (pos c + S (count_occ Nat.eq_dec sched c))%nat with (S (pos c) + count_occ Nat.eq_dec sched c)%nat by lia. reflexivity.
      * destruct (Nat.eq_dec c i); [congruence|]. reflexivity.
    + intros i Hi. unfold pos'. specialize (HP i Hi). cbn [count_occ] in HP.
      destruct (Nat.eqb_spec i c) as [->|Ne]; [destruct (Nat.eq_dec c c); [lia|congruence]|destruct (Nat.eq_dec c i); [congruence|lia]].
Qed.

Lemma copy_back c dst L : (c < chunks)%nat -> wat W dst L ->
  let l := bits_from (lo c) (lo (c + 1) - lo c) in
  let s := put W (stream_open (nth c bufs [])) l in
  (length L + length l <= cap W dst)%nat ->
  fst (stream_copy W dst (stream_rewind (snd (stream_flush W s))) (stream_wtell W s)) = put W dst l.
Proof.
  intros Hc Hw l s HR. destruct (HB c Hc) as [Hb Hr]. fold l in Hr.
  pose proof (wat_open W HW (nth c bufs []) Hb) as Ho.
  destruct (put_wrote W HW _ [] l Ho) as (_ & C & Hs); [cbn [length]; unfold ZfpCodecProofs.cap; exact Hr|].
  fold s in C, Hs. cbn [app] in Hs. rewrite (wat_tell W HW _ _ Hs).
  pose proof (flush_readable W HW (nth c bufs []) 0 l Hb ltac:(lia)) as FR.
  assert (S0 : stream_wseek W (stream_open (nth c bufs [])) 0 = stream_open (nth c bufs [])).
  { unfold stream_wseek. rewrite Nat.mod_0_l, Nat.div_0_l by lia. reflexivity. }
  rewrite S0 in FR. fold s in FR. cbv zeta in FR.
  assert (RW : forall s, stream_rewind s = stream_rseek W s 0).
  { intros t. unfold stream_rseek. rewrite Nat.mod_0_l, Nat.div_0_l by lia. destruct t; reflexivity. }
  rewrite RW. set (fs := snd (stream_flush W s)) in *. destruct FR as ((R & R2 & R3) & F1 & F2 & _).
  pose proof Hw as (Wi & Wf & Wp & Wb).
  pose proof (wat_tell W HW _ _ Hw) as T. unfold ZfpCodecProofs.cap in HR.
  pose proof (copy_spec W HW dst (mem fs) 0 (stream_rseek W fs 0) (length l) Wi Wf R ltac:(lia) ltac:(rewrite T; nia)) as CS.
  destruct (stream_copy W dst (stream_rseek W fs 0) (length l)) as [d' s'].
  destruct CS as (G1 & G2 & G3 & _ & G5 & G6). cbn [fst].
  apply (wrote_put W HW dst L); [exact Hw|exact HR|]. unfold wrote. destruct G3 as (g1 & g2 & g3).
  split; [split; [exact g1|split; [exact g2|exact g3]]|]. split; [unfold ZfpCodecProofs.cap; rewrite g1; reflexivity|].
  split; [exact G1|]. split; [exact G2|]. split.
  - unfold stream_wtell in G6 at 1. rewrite T in G6. rewrite g1. destruct G1 as (b1 & _). nia.
  - rewrite G5, Wb, R3. reflexivity.
Qed.

Lemma finish_ok k : forall c dst L, (c + k = chunks)%nat -> wat W dst L ->
  (length L + length (bits_from (lo c) (N - lo c)) <= cap W dst)%nat ->
  finish_copy W dst (map (fun c => (lo (c + 1), put W (stream_open (nth c bufs [])) (bits_from (lo c) (lo (c + 1) - lo c)))) (seq c k)) =
    put W dst (bits_from (lo c) (N - lo c)).
Proof.
  induction k as [|k IH]; intros c dst L Hk Hw Hc.
  - cbn [seq map finish_copy]. assert (lo c = N) as -> by (unfold lo; replace c with chunks by lia; apply offset_last; exact HC).
    rewrite Nat.sub_diag. reflexivity.
  - cbn [seq map finish_copy]. pose proof (lo_le c). pose proof (lo_N (c + 1) ltac:(lia)).
    assert (E : (N - lo c = (lo (c + 1) - lo c) + (N - lo (c + 1)))%nat) by lia.
    rewrite E in Hc |- *. rewrite bits_from_app in Hc |- *. replace (lo c + (lo (c + 1) - lo c))%nat with (lo (c + 1)) in * by lia.
    rewrite app_length in Hc. rewrite (copy_back c dst L) by (auto; lia).
    destruct (put_wrote W HW dst L (bits_from (lo c) (lo (c + 1) - lo c)) Hw ltac:(lia)) as (_ & C & Hw').
    rewrite put_app. replace (S c) with (c + 1)%nat by lia.
    apply (IH (c + 1)%nat _ _ ltac:(lia) Hw'). rewrite app_length, C. lia.
Qed.

Theorem par_copy sched dst L : complete N chunks sched -> wat W dst L ->
  (length L + length (bits_from 0 N) <= cap W dst)%nat ->
  compress_par_copy W A zero enc junk f m chunks bufs sched dst = Some (put W dst (bits_from 0 N)).
Proof.
  intros [CS1 CS2] Hw Hc. unfold compress_par_copy.
  assert (E0 : start_workers f chunks bufs = ws lo).
  { unfold start_workers, ws. apply map_ext. intros c. rewrite bc. fold (lo c). rewrite Nat.sub_diag. reflexivity. }
  rewrite E0, run_ok; [|exact CS1|].
  - cbn [bind]. apply (f_equal Some). pose proof (finish_ok chunks 0 dst L ltac:(lia) Hw) as FO.
    assert (lo 0 = 0%nat) as L0 by (apply offset_first; exact HC). rewrite L0, Nat.sub_0_r in FO. specialize (FO Hc).
    rewrite <- FO. f_equal. unfold ws. apply map_ext_in. intros c Ic. apply in_seq in Ic. rewrite CS2 by lia. fold (lo c) (lo (c + 1)).
    pose proof (lo_le c). replace (lo c + (lo (c + 1) - lo c))%nat with (lo (c + 1)) by lia. reflexivity.
  - intros c Hc'. rewrite CS2 by exact Hc'. fold (lo c) (lo (c + 1)). pose proof (lo_le c). lia.
Qed.
End Copy.

(** ** fixed rate, word aligned: the chunks write into the caller's buffer *)
Section Shared.
Variable k : nat.
Variable maxbits : Z.
Hypothesis HK : maxbits = Z.of_nat (k * W).
Hypothesis HL : forall b, (b < N)%nat -> length (B b) = (k * W)%nat.
Variable M0 : list Z.
Hypothesis HM0 : wfmem W M0.
Hypothesis HR : (N * k <= length M0)%nat.
Let dst := stream_open M0.
Notation flat := (flat_map (zbits W)).

Definition wordsof (M : list Z) (b : nat) : list Z := firstn k (skipn (b * k) M).
Definition state_ok (pos : nat -> nat) (M : list Z) : Prop :=
  wfmem W M /\ length M = length M0 /\ skipn (N * k) M = skipn (N * k) M0 /\
  forall c b, (c < chunks)%nat -> (lo c <= b < pos c)%nat -> flat (wordsof M b) = B b.
Let ws (pos : nat -> nat) : list (nat * wregs) :=
  map (fun c => (pos c, mk_regs 0 0 ((pos c - lo c) * k) false)) (seq 0 chunks).

Lemma region_eq b : region W maxbits dst b = (b * k)%nat.
Proof.
  unfold region, dst. cbn [ptr stream_open stream_rewind]. rewrite HK, Nat2Z.id.
  rewrite Nat.mul_assoc, Nat.div_mul by lia. reflexivity.
Qed.

Lemma disjoint c c' b : (c < chunks)%nat -> (c' < chunks)%nat -> (lo c <= b < lo (c + 1))%nat -> (lo c' <= b < lo (c' + 1))%nat -> c = c'.
Proof.
  intros H1 H2 H3 H4. destruct (lt_eq_lt_dec c c') as [[L|E]|G]; [|exact E|].
  - assert (lo (c + 1) <= lo c')%nat by (apply offset_mono; lia). lia.
  - assert (lo (c' + 1) <= lo c)%nat by (apply offset_mono; lia). lia.
Qed.

Lemma step_shared pos M c : state_ok pos M -> (c < chunks)%nat -> (forall c, (c < chunks)%nat -> lo c <= pos c <= lo (c + 1))%nat ->
  (pos c < lo (c + 1))%nat ->
  let pos' := fun i => if (i =? c)%nat then S (pos c) else pos i in
  exists M', work_shared W A zero enc junk f m maxbits dst chunks c (M, ws pos) = Some (M', ws pos') /\ state_ok pos' M'.
Proof.
  intros (I1 & I2 & I3 & I4) Hc HP Hlt pos'. pose proof (HP c Hc) as [P1 P2]. pose proof (lo_N (c + 1) ltac:(lia)) as LN.
  set (b := pos c) in *. unfold work_shared. unfold ws at 1. rewrite nth_error_map_seq by exact Hc. rewrite bc. fold (lo c) (lo (c + 1)). fold b.
  destruct (Nat.ltb_spec b (lo (c + 1))); [|lia]. rewrite region_eq.
  set (off := (lo c * k)%nat). set (t := ((b - lo c) * k)%nat). set (V := skipn off M).
  set (s := on_mem (mk_regs 0 0 t false) V).
  assert (OFF : (off + t = b * k)%nat) by (unfold off, t; rewrite <- Nat.mul_add_distr_r; f_equal; lia).
  assert (LV : (length V = length M0 - off)%nat) by (unfold V; rewrite skipn_length; lia).
  assert (BK : (b * k + k <= N * k)%nat) by (apply mul_step; lia).
  assert (WV : wfmem W V) by (unfold V, wfmem; rewrite <- (firstn_skipn off M) in I1; apply Forall_app in I1; apply I1).
  assert (Hw : wat W s (flat (firstn t V))).
  { split; [|split; [reflexivity|split]].
    - split; [cbn; lia|]. split; [cbn; lia|exact WV].
    - cbn. lia.
    - unfold wbits, s. cbn. rewrite app_nil_r. reflexivity. }
  assert (LF : length (flat (firstn t V)) = (W * t)%nat).
  { rewrite (flat_length W HW). rewrite firstn_length_le by lia. reflexivity. }
  assert (ROOM : (length (flat (firstn t V)) + length (B b) <= cap W s)%nat).
  { rewrite LF, HL by lia. unfold ZfpCodecProofs.cap, s. cbn [mem on_mem]. rewrite LV. nia. }
  rewrite (index_ok A zero enc junk m f HF HJ b s HD) by (fold N; lia).
  rewrite (HA s _ _ Hw (HO b ltac:(lia)) ROOM). fold (B b). cbn [bind].
  destruct (put_wrote W HW s _ (B b) Hw ROOM) as (F & _ & Hw').
  set (s' := put W s (B b)) in *. destruct F as (F1 & F2 & F3 & F4). pose proof (wat_tell W HW _ _ Hw') as T.
  rewrite app_length, LF, HL in T by lia. unfold stream_wtell in T. destruct Hw' as ((B1 & B2 & B3) & W2 & W3 & W4).
  assert (PT : ptr s' = (t + k)%nat /\ bits s' = 0%nat).
  { assert (W * ptr s' + bits s' = W * (t + k))%nat by lia. assert (ptr s' = t + k)%nat by nia. split; [assumption|nia]. }
  destruct PT as [PT PB].
  assert (RG : regs_of s' = mk_regs 0 0 (t + k) false).
  { unfold regs_of. rewrite PT, PB, W2. rewrite PB in B2. change (2 ^ Z.of_nat 0)%Z with 1%Z in B2. f_equal. lia. }
  cbn [mem on_mem s] in F1, F3, F4. cbn [ptr on_mem s rptr] in F4. rewrite PT in F3. fold V in F1, F3, F4.
  set (M' := firstn off M ++ mem s') in *.
  assert (OM : (off <= length M)%nat) by (rewrite I2; lia).
  assert (LO : length (firstn off M) = off) by (apply firstn_length_le; exact OM).
  assert (SK : skipn off M' = mem s').
  { unfold M'. rewrite skipn_app, LO, Nat.sub_diag. rewrite skipn_all2 by lia. reflexivity. }
  assert (FK : firstn (b * k) M' = firstn (b * k) M).
  { rewrite <- OFF, !firstn_plus. fold V. rewrite SK, F4. f_equal. unfold M'. rewrite firstn_app, LO, Nat.sub_diag. cbn [firstn].
    rewrite app_nil_r. rewrite firstn_all2 by lia. reflexivity. }
  assert (EK : skipn (b * k + k) M' = skipn (b * k + k) M).
  { rewrite <- OFF. replace (off + t + k)%nat with ((t + k) + off)%nat by lia. rewrite (skipn_add (t + k) off M'), (skipn_add (t + k) off M). fold V. rewrite SK. exact F3. }
  exists M'. split.
  - apply (f_equal Some). f_equal. unfold ws at 1. rewrite upd_map_seq by exact Hc. unfold ws. apply map_ext. intros i. unfold pos'.
    destruct (Nat.eqb_spec i c) as [->|Ne]; [|reflexivity]. rewrite RG. f_equal. f_equal. unfold t. fold b. replace (S b - lo c)%nat with (S (b - lo c)) by lia. lia.
  - split; [|split; [|split]].
    + unfold M', wfmem. apply Forall_app. split; [|exact B3]. rewrite <- (firstn_skipn off M) in I1. apply Forall_app in I1. apply I1.
    + unfold M'. rewrite app_length, LO, F1, LV. lia.
    + rewrite <- I3. replace (N * k)%nat with ((N * k - (b * k + k)) + (b * k + k))%nat by lia.
      rewrite (skipn_add _ (b * k + k) M'), EK, (skipn_add _ (b * k + k) M). reflexivity.
    + intros c' b' Hc' Hb'. destruct (Nat.eq_dec b' b) as [->|Nb].
      * unfold wordsof. rewrite <- OFF. rewrite (Nat.add_comm off t), skipn_add, SK.
        rewrite <- (app_inv_head_iff (flat (firstn t V))). rewrite <- W4. unfold wbits. rewrite PB. cbn [zbits]. rewrite app_nil_r.
        rewrite PT, firstn_plus, flat_map_app. rewrite <- F4. reflexivity.
      * transitivity (flat (wordsof M b')).
        -- f_equal. unfold wordsof. destruct (lt_dec b' b).
           ++ pose proof (mul_step b' b k l) as MS. rewrite !firstn_skipn_comm. f_equal.
              transitivity (firstn (b' * k + k) (firstn (b * k) M')); [rewrite firstn_firstn; f_equal; lia|].
              rewrite FK, firstn_firstn. f_equal. lia.
           ++ pose proof (mul_step b b' k ltac:(lia)) as MS. f_equal. replace (b' * k)%nat with ((b' * k - (b * k + k)) + (b * k + k))%nat by lia.
              rewrite (skipn_add _ (b * k + k) M'), EK, (skipn_add _ (b * k + k) M). reflexivity.
        -- apply (I4 c' b' Hc'). unfold pos' in Hb'. destruct (Nat.eqb_spec c' c) as [->|Ne]; [|exact Hb']. fold b. lia.
Qed.

Lemma run_shared_ok sched : forall pos M, state_ok pos M ->
  Forall (fun c => c < chunks)%nat sched ->
  (forall c, (c < chunks)%nat -> lo c <= pos c /\ pos c + count_occ Nat.eq_dec sched c <= lo (c + 1))%nat ->
  exists M', run_shared W A zero enc junk f m maxbits dst chunks sched (M, ws pos) =
      Some (M', ws (fun c => pos c + count_occ Nat.eq_dec sched c)%nat) /\
    state_ok (fun c => pos c + count_occ Nat.eq_dec sched c)%nat M'.
Proof.
  induction sched as [|c sched IH]; intros pos M I HS HP; cbn [run_shared].
  - exists M. assert (E : ws pos = ws (fun c => pos c + count_occ Nat.eq_dec [] c)%nat).
    { unfold ws. apply map_ext. intros c. cbn [count_occ]. rewrite Nat.add_0_r. reflexivity. }
    rewrite <- E. split; [reflexivity|]. destruct I as (I1 & I2 & I3 & I4). repeat split; auto.
    intros c b Hc Hb. cbn [count_occ] in Hb. apply (I4 c); [exact Hc|lia].
  - pose proof (Forall_inv HS) as Hc. pose proof (Forall_inv_tail HS) as HS'. cbv beta in Hc. pose proof (HP c Hc) as [P1 P2]. cbn [count_occ] in P2. destruct (Nat.eq_dec c c); [|congruence].
    destruct (step_shared pos M c I Hc) as (M1 & E1 & I1).
    { intros i Hi. specialize (HP i Hi). lia. }
    { lia. }
    rewrite E1. cbn [bind]. set (pos' := fun i => if (i =? c)%nat then S (pos c) else pos i) in *.
    assert (EQ : forall i, (pos' i + count_occ Nat.eq_dec sched i = pos i + count_occ Nat.eq_dec (c :: sched) i)%nat).
    { intros i. unfold pos'. cbn [count_occ]. destruct (Nat.eqb_spec i c) as [->|Ne].
      - destruct (Nat.eq_dec c c); [lia|congruence].
      - destruct (Nat.eq_dec c i); [congruence|reflexivity]. }
    destruct (IH pos' M1 I1 HS') as (M2 & E2 & I2).
    { intros i Hi. rewrite EQ. split; [|apply HP; exact Hi]. unfold pos'. specialize (HP i Hi). destruct (Nat.eqb_spec i c) as [->|Ne]; lia. }
    exists M2. split.
    + rewrite E2. do 2 f_equal. unfold ws. apply map_ext. intros i. rewrite EQ. reflexivity.
    + destruct I2 as (J1 & J2 & J3 & J4). repeat split; auto. intros i b Hi Hb. apply (J4 i); [exact Hi|]. rewrite EQ. exact Hb.
Qed.

Lemma owner b : (b < N)%nat -> exists c, (c < chunks)%nat /\ (lo c <= b < lo (c + 1))%nat.
Proof.
  intros Hb. assert (G : forall n, (n <= chunks)%nat -> (b < lo n)%nat -> exists c, (c < n)%nat /\ (lo c <= b < lo (c + 1))%nat).
  { induction n as [|n IH]; intros Hn Hl.
    - rewrite (offset_first N chunks HC : lo 0 = 0%nat) in Hl. lia.
    - destruct (le_lt_dec (lo n) b).
      + exists n. split; [lia|]. replace (n + 1)%nat with (S n) by lia. lia.
      + destruct (IH ltac:(lia) l) as (c & C1 & C2). exists c. split; [lia|exact C2]. }
  destruct (G chunks ltac:(lia)) as (c & C1 & C2); [rewrite (offset_last N chunks HC : lo chunks = N); exact Hb|]. exists c. auto.
Qed.

Lemma blocks_flat M n : (n <= N)%nat -> (N * k <= length M)%nat -> (forall b, (b < N)%nat -> flat (wordsof M b) = B b) ->
  flat (firstn (n * k) M) = bits_from 0 n.
Proof.
  intros Hn HLn H. induction n as [|n IH]; [reflexivity|].
  replace (S n) with (n + 1)%nat at 2 by lia. rewrite bits_from_S. cbn [Nat.add]. rewrite <- IH, <- (H n) by lia.
  replace (S n * k)%nat with (n * k + k)%nat by lia. rewrite firstn_plus, flat_map_app. reflexivity.
Qed.

Lemma finish_fold M : forall c n o, (c + n <= chunks)%nat -> length M = length M0 ->
  fold_left (fun '(m, offset) '(c, (_, r)) =>
          let off := region W maxbits dst (chunk_offset (block_count f) chunks c) in
          let s := on_mem r (skipn off m) in
          (firstn off m ++ mem (snd (stream_flush W s)), (offset + stream_wtell W s)%nat))
    (combine (seq c n) (map (fun c => (lo (c + 1), mk_regs 0 0 ((lo (c + 1) - lo c) * k) false)) (seq c n))) (M, o) =
  (M, (o + W * ((lo (c + n) - lo c) * k))%nat).
Proof.
  intros c n. revert c. induction n as [|n IH]; intros c o Hc HM; cbn [seq map combine fold_left].
  - rewrite Nat.add_0_r, Nat.sub_diag. f_equal. lia.
  - rewrite bc. fold (lo c). rewrite region_eq. unfold stream_flush, stream_wtell, on_mem. cbn [bits ptr rbits rptr mem].
    replace ((W - 0) mod W)%nat with 0%nat by (rewrite Nat.sub_0_r, Nat.mod_same; lia). cbn [Nat.eqb snd mem].
    rewrite firstn_skipn. rewrite bc in IH. fold (lo c). rewrite IH by lia. f_equal.
    pose proof (lo_le c). assert (lo (S c) <= lo (S c + n))%nat by (apply offset_mono; lia).
    replace (c + 1)%nat with (S c) in * by lia. replace (c + S n)%nat with (S c + n)%nat by lia. nia.
Qed.

Theorem par_shared sched : complete N chunks sched ->
  compress_par_shared W A zero enc junk f m maxbits chunks sched dst = Some (put W dst (bits_from 0 N)).
Proof.
  intros [CS1 CS2]. unfold compress_par_shared.
  assert (E0 : start_shared f maxbits dst chunks = (M0, ws lo)).
  { unfold start_shared, ws, dst. cbn [mem stream_open stream_rewind]. f_equal. apply map_ext. intros c. rewrite bc. fold (lo c). rewrite Nat.sub_diag. reflexivity. }
  rewrite E0. destruct (run_shared_ok sched lo M0) as (M & E1 & (I1 & I2 & I3 & I4)).
  { repeat split; auto. intros. lia. }
  { exact CS1. }
  { intros c Hc'. rewrite CS2 by exact Hc'. fold (lo c) (lo (c + 1)). pose proof (lo_le c). lia. }
  rewrite E1. cbn [bind]. unfold finish_shared. rewrite bc. fold (lo 0). rewrite region_eq.
  rewrite (offset_first N chunks HC : lo 0 = 0%nat). cbn [Nat.mul Nat.eqb negb].
  assert (EW : ws (fun c => lo c + count_occ Nat.eq_dec sched c)%nat =
    map (fun c => (lo (c + 1), mk_regs 0 0 ((lo (c + 1) - lo c) * k) false)) (seq 0 chunks)).
  { unfold ws. apply map_ext_in. intros c Hc. apply in_seq in Hc. rewrite CS2 by lia. fold (lo c) (lo (c + 1)). pose proof (lo_le c).
    replace (lo c + (lo (c + 1) - lo c))%nat with (lo (c + 1)) by lia. reflexivity. }
  rewrite EW. pose proof (finish_fold M 0 chunks (stream_wtell W dst) ltac:(lia) I2) as FF. rewrite bc in FF. cbv zeta in FF. rewrite FF. clear FF.
  rewrite Nat.add_0_l, (offset_last N chunks HC : lo chunks = N), (offset_first N chunks HC : lo 0 = 0%nat), Nat.sub_0_r.
  apply (f_equal Some).
  assert (ALL : forall b, (b < N)%nat -> flat (wordsof M b) = B b).
  { intros b Hb. destruct (owner b Hb) as (c & C1 & C2). apply (I4 c b C1). rewrite CS2 by exact C1. fold (lo c) (lo (c + 1)). lia. }
  pose proof (wat_open W HW M0 HM0) as Hd. fold dst in Hd.
  pose proof (blocks_flat M N ltac:(lia) ltac:(lia) ALL) as BF.
  assert (LB : length (bits_from 0 N) = (W * (N * k))%nat).
  { rewrite <- BF, (flat_length W HW). rewrite firstn_length_le by lia. reflexivity. }
  apply (wrote_put W HW dst []); [exact Hd|cbn [length]; unfold ZfpCodecProofs.cap, dst; cbn [mem stream_open stream_rewind]; nia|].
  unfold stream_wtell, dst. cbn [ptr bits stream_open stream_rewind buffer fault]. rewrite Nat.mul_0_r. cbn [Nat.add].
  unfold stream_wseek. rewrite (Nat.mul_comm W), Nat.mod_mul, Nat.div_mul by lia. cbn [Nat.eqb].
  split; [|split].
  - split; [exact I2|]. split; [cbn; lia|]. split; [exact I3|reflexivity].
  - unfold ZfpCodecProofs.cap. cbn [mem set_bits set_buffer set_ptr]. rewrite I2. reflexivity.
  - split; [split; [cbn; lia|split; [cbn; lia|exact I1]]|]. split; [reflexivity|]. split; [cbn; lia|].
    unfold wbits. cbn [ptr mem bits buffer set_bits set_buffer set_ptr zbits]. rewrite app_nil_r. exact BF.
Qed.
End Shared.
End Par.
