(** Arrays coded with any block coder whose encoder appends a code word that depends only on
    the block and whose decoder reads that code word back. *)
From Coq Require Import ZArith List Bool Arith Lia.
From Verif Require Import ListAux Bits Bitstream BitstreamProofs BitstreamProofs2 StreamSpec StreamRuns.
From Verif Require Import EmbedSpec ZfpCodec ZfpCodecProofs ZfpCodecProofs2 EmbedRuns ZfpXform BlockSpec BlockProofs PropertiesZfpEmbed PropertiesZfpBlock.
From Verif Require Import XformProofs ZfpArray ArraySpec ArrayProofs ArrayProofs2 ArrayProofs3 ArrayProofs4 PropertiesZfpArray.
Import ListNotations.
Local Open Scope Z_scope.

Section Codec.
Variable W : nat.
Hypothesis HW0 : word_size W.
Variable enc : stream -> list Z -> option stream.
Variable dec : stream -> stream * option (list Z).
Variable code : list Z -> list bool.
Variable ok : list Z -> Prop.
Variable rec : list Z -> option (list Z).
Hypothesis enc_put : forall s L b, ok b -> wat W s L -> (length L + length (code b) <= cap W s)%nat ->
  enc s b = Some (put W s (code b)).
Hypothesis dec_read : forall m pos s b, ok b -> readable W m pos (code b) s ->
  exists s', dec s = (s', rec b) /\ rat W m (pos + length (code b)) s'.
Let HW := word_size_range W HW0.

Lemma feed_put bs : Forall ok bs -> forall s L, wat W s L -> (length L + length (concat (map code bs)) <= cap W s)%nat ->
  feed enc s bs = Some (put W s (concat (map code bs))) /\
  wat W (put W s (concat (map code bs))) (L ++ concat (map code bs)).
Proof.
  induction 1 as [|b bs Hb _ IH]; intros s L Hw Hc.
  - cbn [feed map concat]. rewrite put_nil, app_nil_r. auto.
  - cbn [feed map concat] in *. rewrite app_length in Hc. rewrite (enc_put s L b Hb Hw) by lia.
    destruct (put_wrote W HW s L (code b) Hw ltac:(lia)) as (_ & C & Hw').
    destruct (IH _ _ Hw') as [I1 I2]; [rewrite app_length, C; lia|].
    rewrite I1, put_app, app_assoc. auto.
Qed.

Lemma decode_seq_read bs qs : Forall ok bs -> map rec bs = map Some qs -> forall m pos s,
  readable W m pos (concat (map code bs)) s ->
  exists s', decode_seq Z dec (length bs) s = Some (qs, s') /\ rat W m (pos + length (concat (map code bs))) s'.
Proof.
  intros F. revert qs. induction F as [|b bs Hb _ IH]; intros qs E m pos s R.
  - destruct qs; [|discriminate]. exists s. cbn [map concat length] in *. rewrite Nat.add_0_r. split; [reflexivity|apply R].
  - destruct qs as [|q qs]; [discriminate|]. cbn [map] in E.
    assert (E1 : rec b = Some q) by congruence. assert (E2 : map rec bs = map Some qs) by congruence.
    cbn [map concat length decode_seq] in *.
    destruct (dec_read m pos s b Hb) as (s1 & D1 & R1).
    { apply (readable_prefix W HW m pos (code b) (concat (map code bs))). exact R. }
    rewrite D1, E1. cbn [bind].
    destruct (IH qs E2 m (pos + length (code b))%nat s1) as (s2 & D2 & R2).
    { apply (readable_next W HW m pos (code b) _ s s1); assumption. }
    rewrite D2. cbn [bind]. exists s2. split; [reflexivity|]. rewrite app_length, Nat.add_assoc. exact R2.
Qed.

(** compress an array f, decompress into an array g of the same shape *)
Lemma codec_array buf off junk f m g mg (out : nat -> list Z) :
  let d := zfp_field_dimensionality f in
  let blk := array_block 0 m (fdata f) (sizes f) (array_strides f) in
  let all := concat (map code (array_blocks 0 m (fdata f) (sizes f) (array_strides f))) in
  buffer_ok W buf ->
  (1 <= d)%nat -> sizes g = sizes f -> int_strides f -> int_strides g -> length junk = (4 ^ d)%nat ->
  fits m (fdata f) (sizes f) (array_strides f) ->
  fits mg (fdata g) (sizes g) (array_strides g) -> no_overlap (fdata g) (sizes g) (array_strides g) ->
  (forall b, (b < blocks_in (sizes f))%nat -> ok (blk b) /\ rec (blk b) = Some (out b) /\ length (out b) = (4 ^ d)%nat) ->
  (off + length all <= W * length buf)%nat ->
  exists s m' s',
    compress Z 0 enc junk f m (stream_wseek W (stream_open buf) off) = Some s /\
    s = put W (stream_wseek W (stream_open buf) off) all /\
    fault s = false /\ stream_wtell W s = (off + length all)%nat /\
    decompress Z dec g (mg, stream_rseek W (snd (stream_flush W s)) off) = Some (m', s') /\
    fault s' = false /\ stream_rtell W s' = stream_wtell W s /\ length m' = length mg /\
    (forall cs, inside cs (sizes f) ->
       at_addr 0 m' (addr (fdata g) (array_strides g) cs) = nth (place_of cs) (out (block_of (sizes f) cs)) 0) /\
    (forall a, 0 <= a -> (forall cs, inside cs (sizes f) -> addr (fdata g) (array_strides g) cs <> a) ->
       at_addr 0 m' a = at_addr 0 mg a).
Proof.
  intros d blk all Hb HD HG If Ig HJ HF HFg HNg Hblk Hc. subst d.
  destruct (dim_dims f HD) as (DD & LN & HPos).
  set (bs := array_blocks 0 m (fdata f) (sizes f) (array_strides f)) in *.
  assert (LB : length bs = blocks_in (sizes f)) by (unfold bs, array_blocks; rewrite map_length, seq_length; reflexivity).
  assert (OK : Forall ok bs).
  { apply Forall_forall. intros x X. apply in_map_iff in X as (b & <- & I). apply in_seq in I. apply Hblk. lia. }
  set (qs := map out (seq 0 (blocks_in (sizes f)))).
  assert (EQ : map rec bs = map Some qs).
  { unfold bs, array_blocks, qs. rewrite !map_map. apply map_ext_in. intros b I. apply in_seq in I. apply Hblk. lia. }
  destruct (start_wat W buf off HW0 Hb ltac:(lia)) as (Hw & L0 & Hcap).
  destruct (feed_put bs OK _ _ Hw ltac:(unfold all in Hc; fold bs in Hc; lia)) as [E Hw']. fold all in E, Hw'.
  destruct (flush_readable W HW buf off all Hb Hc) as (R & _).
  destruct (decode_seq_read bs qs OK EQ _ _ _ R) as (s' & ED & R'). fold all in R'. rewrite LB in ED.
  assert (DG : zfp_field_dimensionality g = zfp_field_dimensionality f).
  { assert (X : forall h, length (sizes h) = zfp_field_dimensionality h).
    { intros h. destruct (sizes_cases h) as [H|[H|[H|[H|H]]]]; destruct H as (D & -> & _); rewrite D; reflexivity. }
    rewrite <- !X, HG. reflexivity. }
  rewrite HG in *.
  destruct (C17_decompress Z 0 dec g mg (stream_rseek W (snd (stream_flush W (put W (stream_wseek W (stream_open buf) off) all))) off) qs s')
    as (m' & E1 & E2 & E3 & E4); rewrite ?HG; auto; [lia| |].
  { rewrite DG. apply Forall_forall. intros q I. apply in_map_iff in I as (b & <- & I). apply in_seq in I. apply Hblk. lia. }
  rewrite HG in *. eexists. exists m', s'. rewrite C17_compress by auto. fold bs. split; [exact E|]. split; [reflexivity|].
  split; [apply Hw'|].
  assert (TW : stream_wtell W (put W (stream_wseek W (stream_open buf) off) all) = (off + length all)%nat).
  { rewrite (wat_tell W HW _ _ Hw'), app_length, L0. reflexivity. }
  split; [exact TW|]. split; [exact E1|]. split; [apply R'|]. rewrite TW. split; [apply R'|]. split; [exact E2|]. split; [|exact E4].
  intros cs Hcs. rewrite E3 by exact Hcs. f_equal. unfold qs.
  rewrite (nth_indep _ [] (out 0%nat)) by (rewrite map_length, seq_length; apply block_of_lt; exact Hcs).
  rewrite map_nth, seq_nth by (apply block_of_lt; exact Hcs). reflexivity.
Qed.

(** a block written anywhere and read back *)
Lemma codec_block buf off b : buffer_ok W buf -> ok b -> (off + length (code b) <= W * length buf)%nat ->
  exists s s', enc (stream_wseek W (stream_open buf) off) b = Some s /\ fault s = false /\
    stream_wtell W s = (off + length (code b))%nat /\
    dec (stream_rseek W (snd (stream_flush W s)) off) = (s', rec b) /\ fault s' = false /\
    stream_rtell W s' = stream_wtell W s.
Proof.
  intros Hb Ho Hc. destruct (start_wat W buf off HW0 Hb ltac:(lia)) as (Hw & L0 & Hcap).
  pose proof (enc_put _ _ b Ho Hw ltac:(lia)) as E.
  destruct (put_wrote W HW _ _ (code b) Hw ltac:(lia)) as (_ & C & Hw').
  destruct (flush_readable W HW buf off (code b) Hb Hc) as (R & _).
  destruct (dec_read _ _ _ b Ho R) as (s' & D & R').
  eexists. exists s'. split; [exact E|]. split; [apply Hw'|].
  assert (T : stream_wtell W (put W (stream_wseek W (stream_open buf) off) (code b)) = (off + length (code b))%nat).
  { rewrite (wat_tell W HW _ _ Hw'), app_length, L0. reflexivity. }
  split; [exact T|]. split; [exact D|]. split; [apply R'|]. rewrite T. apply R'.
Qed.
End Codec.
