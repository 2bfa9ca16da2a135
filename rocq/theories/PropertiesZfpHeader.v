(** Properties of the zfp header and of the buffer size bound (C18, C15). *)
From Coq Require Import ZArith List Bool Arith Lia.
From Verif Require Import ListAux Bits Bitstream BitstreamProofs BitstreamProofs2 StreamSpec StreamRuns.
From Verif Require Import EmbedSpec ZfpCodec ZfpCodecProofs ZfpCodecProofs2 EmbedRuns ZfpXform BlockSpec BlockProofs PropertiesZfpEmbed PropertiesZfpBlock.
From Verif Require Import ZfpArray ArraySpec ArrayProofs ArrayProofs2 ArrayProofs3 ArrayProofs4 PropertiesZfpArray.
From Verif Require Import ZfpFloat FloatProofs CodecArray FloatProofs2 FloatSpec PropertiesZfpFloat ZfpApi PropertiesZfpApi HeaderProofs.
Import ListNotations.
Local Open Scope Z_scope.
Ltac Zify.zify_post_hook ::= idtac.

(* ------------------------------------------------------------------------------------ *)
(** * C18: headers *)

(** room for any header, zfp.h:97-99 *)
Lemma header_bits_max p t f mask : (h_meta mask = true -> meta_ok t f) -> (length (header_bits p t f mask) <= 148)%nat.
Proof.
  intros H. unfold header_bits. rewrite !app_length.
  assert (length (if h_magic mask then magic_bits else []) <= 32)%nat by (destruct (h_magic mask); cbn; lia).
  assert (length (if h_meta mask then meta_bits t f else []) <= 52)%nat.
  { destruct (h_meta mask); [rewrite meta_bits_length by auto; lia|cbn; lia]. }
  assert (length (if h_mode mask then mode_bits p else []) <= 64)%nat.
  { destruct (h_mode mask); [|cbn; lia]. unfold mode_bits. rewrite number_length. destruct (_ <=? _); lia. }
  lia.
Qed.

(** A header with any combination of the three parts, written at any bit of any buffer: the
    buffer then holds exactly the bits of the documented layout and the size is reported;
    reading it back with the same mask reports the same size, leaves the stream just behind
    it and restores the parts in the mask, touching nothing else. *)
Theorem C18_round_trip : forall W p t f mask q t0 f0 buf off,
  word_size W -> buffer_ok W buf -> (off + 148 <= W * length buf)%nat ->
  (h_meta mask = true -> meta_ok t f) -> (h_mode mask = true -> valid p /\ encodable p) ->
  let '(n, s) := write_header W p t f mask (stream_wseek W (stream_open buf) off) in
  n = length (header_bits p t f mask) /\ (n <= 148)%nat /\
  s = put W (stream_wseek W (stream_open buf) off) (header_bits p t f mask) /\
  fault s = false /\ stream_wtell W s = (off + n)%nat /\
  let '(n', q', t', f', s') := read_header W q t0 f0 mask (stream_rseek W (snd (stream_flush W s)) off) in
  n' = n /\ fault s' = false /\ stream_rtell W s' = (off + n)%nat /\
  q' = (if h_mode mask then p else q) /\
  t' = (if h_meta mask then t else t0) /\
  (if h_meta mask
   then sizes f' = sizes f /\ fsx f' = 0 /\ fsy f' = 0 /\ fsz f' = 0 /\ fsw f' = 0 /\ fdata f' = fdata f0
   else f' = f0).
Proof.
  intros W p t f mask q t0 f0 buf off HW0 Hb Hc Hme Hmo. pose proof (word_size_range W HW0) as HW.
  pose proof (header_bits_max p t f mask Hme) as HL.
  destruct (start_wat W buf off HW0 Hb ltac:(lia)) as (Hw & L0 & Hcap).
  rewrite (write_header_put W HW p t f mask _ _ Hw Hme).
  - set (B := header_bits p t f mask) in *.
    destruct (put_wrote W HW _ _ B Hw ltac:(lia)) as (_ & C & Hw').
    split; [reflexivity|]. split; [exact HL|]. split; [reflexivity|]. split; [apply Hw'|].
    split; [rewrite (wat_tell W HW _ _ Hw'), app_length, L0; reflexivity|].
    destruct (flush_readable W HW buf off B Hb ltac:(lia)) as (R & _ & _).
    rewrite <- (app_nil_r B) in R at 2.
    pose proof (read_header_back W HW p t f mask q t0 f0 _ _ [] _ Hme Hmo R) as RH. fold B in RH.
    destruct (read_header W q t0 f0 mask _) as [[[[n' q'] t'] f'] s'].
    destruct RH as (E1 & E2 & E3 & E4 & E5). rewrite E1 in E2. destruct E2 as [E2 _].
    split; [exact E1|]. split; [apply E2|]. split; [apply E2|]. split; [exact E3|]. split; [exact E4|].
    destruct (h_meta mask); [|exact E5]. destruct E5 as (nx & ny & nz & nw & E5 & E6). rewrite E5 in *. cbn. auto 10.
  - intros Hm. destruct (Hmo Hm) as [V EN].
    destruct (C19_code_size p V) as [H|[H _]]; [destruct EN as (_ & _ & EN & _); lia|lia|lia].
  - lia.
Qed.
Print Assumptions C18_round_trip.

Example C18_nonvacuous :
  let p := mk_params 10 3000 17 (-200) in let f := mk_field 100 7 0 0 0 0 0 0 5 in
  let buf := repeat 255 25 in
  word_size 8 /\ buffer_ok 8 buf /\ (19 + 148 <= 8 * length buf)%nat /\ meta_ok t_float f /\ valid p /\ encodable p /\
  fst (write_header 8 p t_float f (mk_hmask true true true) (stream_wseek 8 (stream_open buf) 19)) = 148%nat /\
  let s := snd (write_header 8 p t_float f (mk_hmask true true true) (stream_wseek 8 (stream_open buf) 19)) in
  fst (read_header 8 default_params t_none (mk_field 0 0 0 0 1 2 3 4 9) (mk_hmask true true true) (stream_rseek 8 (snd (stream_flush 8 s)) 19)) =
    (148%nat, p, t_float, mk_field 100 7 0 0 0 0 0 0 9).
Proof.
  cbv zeta. split; [left; reflexivity|]. split; [repeat constructor; cbn; lia|]. split; [cbn; lia|].
  split; [split; [discriminate|]; split; [discriminate|]; repeat constructor; vm_compute; congruence|].
  split; [split; cbn; lia|]. split; [unfold encodable; cbn; lia|]. split; vm_compute; reflexivity.
Qed.

(** Data that do not start with the magic bytes are rejected, and then nothing changes. *)
Theorem C18_reject : forall W p t f mask buf off i,
  word_size W -> buffer_ok W buf -> (off + 32 <= W * length buf)%nat -> h_magic mask = true ->
  (i < 32)%nat -> mem_bit W buf (off + i) <> nth i magic_bits false ->
  let '(n, q', t', f', s') := read_header W p t f mask (stream_rseek W (stream_open buf) off) in
  n = 0%nat /\ q' = p /\ t' = t /\ f' = f /\ fault s' = false.
Proof.
  intros W p t f mask buf off i HW0 Hb Hc Hm Hi Hne. pose proof (word_size_range W HW0) as HW.
  pose proof (rat_rseek W HW (stream_open buf) off Hb eq_refl ltac:(cbn; lia)) as R. change (mem (stream_open buf)) with buf in R.
  pose proof (read_magic_spec W HW buf off _ R Hc) as M. unfold read_header. rewrite Hm.
  destruct (read_magic W _) as [ok s']. destruct M as [F M]. destruct ok.
  - exfalso. destruct (M eq_refl) as [E _]. apply Hne. rewrite <- E.
    pose proof (nth_flat W HW buf (off + i)) as N. destruct (Nat.ltb_spec (off + i) (W * length buf)); [|lia].
    rewrite <- N. rewrite <- (firstn_skipn off (membits W buf)) at 1.
    assert (LL : length (firstn off (membits W buf)) = off).
    { apply firstn_length_le. rewrite membits_length by exact HW. lia. }
    rewrite app_nth2 by lia. rewrite LL. replace (off + i - off)%nat with i by lia.
    rewrite <- (firstn_skipn 32 (skipn off (membits W buf))) at 1. rewrite app_nth1; [reflexivity|].
    rewrite firstn_length_le; [exact Hi|]. rewrite skipn_length, membits_length by exact HW. lia.
  - cbn [negb]. auto 6.
Qed.
Print Assumptions C18_reject.

Example C18_reject_nonvacuous :
  let buf := [0; 122; 102; 112; 4; 0; 0] in
  buffer_ok 8 buf /\ (8 + 32 <= 8 * length buf)%nat /\ mem_bit 8 buf (8 + 24) <> nth 24 magic_bits false.
Proof. split; [repeat constructor; cbn; lia|]. split; [cbn; lia|]. vm_compute. discriminate. Qed.

(** Whatever the buffer holds, a header that is accepted has one of the documented sizes, the
    stream is just behind it, the parameters set are valid, and type and sizes are meaningful. *)
Theorem C18_accept : forall W p t f mask buf off,
  word_size W -> buffer_ok W buf -> (off + 148 <= W * length buf)%nat ->
  let '(n, q', t', f', s') := read_header W p t f mask (stream_rseek W (stream_open buf) off) in
  fault s' = false /\
  (n = 0%nat \/
   stream_rtell W s' = (off + n)%nat /\
   (exists k, n = ((if h_magic mask then 32 else 0) + (if h_meta mask then 52 else 0) + k)%nat /\
      (if h_mode mask then k = 12%nat \/ k = 64%nat else k = 0%nat)) /\
   (if h_mode mask then valid q' else q' = p) /\
   (if h_meta mask then t' <> t_none /\ fdata f' = fdata f else t' = t /\ f' = f)).
Proof.
  intros W p t f mask buf off HW0 Hb Hc. pose proof (word_size_range W HW0) as HW.
  pose proof (rat_rseek W HW (stream_open buf) off Hb eq_refl ltac:(cbn; lia)) as R. change (mem (stream_open buf)) with buf in R.
  set (s := stream_rseek W (stream_open buf) off) in *. clearbody s. unfold read_header.
  set (P := if h_magic mask then _ else (true, 0%nat, s)).
  assert (A : exists ok k1 s1, P = (ok, k1, s1) /\ k1 = (if h_magic mask then 32 else 0)%nat /\ fault s1 = false /\
     (ok = true -> rat W buf (off + k1) s1)).
  { unfold P. destruct (h_magic mask).
    - pose proof (read_magic_spec W HW buf off _ R ltac:(lia)) as M. destruct (read_magic W s) as [ok s']. destruct M as [M1 M2].
      exists ok, 32%nat, s'. split; [reflexivity|]. split; [reflexivity|]. split; [exact M1|]. intros E. apply M2. exact E.
    - exists true, 0%nat, s. rewrite Nat.add_0_r. split; [reflexivity|]. split; [reflexivity|]. split; [apply R|auto]. }
  destruct A as (ok & k1 & s1 & -> & K1 & F1 & R1). destruct ok; [|cbn [negb]; auto]. cbn [negb]. specialize (R1 eq_refl).
  assert (B1 : (k1 <= 32)%nat) by (rewrite K1; destruct (h_magic mask); lia).
  set (P := if h_meta mask then _ else (k1, t, f, s1)).
  assert (A : exists k2 t2 f2 s2, P = ((k1 + k2)%nat, t2, f2, s2) /\ k2 = (if h_meta mask then 52 else 0)%nat /\
     rat W buf (off + (k1 + k2)) s2 /\ (if h_meta mask then t2 <> t_none /\ fdata f2 = fdata f else t2 = t /\ f2 = f)).
  { unfold P. destruct (h_meta mask).
    - pose proof (rat_read_bits W HW buf _ s1 52 R1 ltac:(lia) ltac:(lia)) as D. unfold ZFP_META_BITS.
      destruct (stream_read_bits W s1 52) as [v s2]. destruct D as [_ D]. unfold set_metadata.
      exists 52%nat. do 3 eexists. split; [reflexivity|]. split; [reflexivity|]. split; [rewrite Nat.add_assoc; exact D|].
      split.
      + change 3 with (2 ^ 2 - 1). rewrite land_mask by lia.
        pose proof (Z.mod_pos_bound v (2 ^ 2) ltac:(lia)) as B. set (x := v mod 2 ^ 2) in *. clearbody x.
        assert (x = 0 \/ x = 1 \/ x = 2 \/ x = 3) as [-> |[-> |[-> | ->]]] by lia; discriminate.
      + cbv zeta. destruct (_ =? 1); [reflexivity|]. destruct (_ =? 2); [reflexivity|]. destruct (_ =? 3); reflexivity.
    - exists 0%nat, t, f, s1. rewrite Nat.add_0_r. auto. }
  destruct A as (k2 & t2 & f2 & s2 & -> & K2 & R2 & T2).
  assert (B2 : (k2 <= 52)%nat) by (rewrite K2; destruct (h_meta mask); lia).
  destruct (h_mode mask) eqn:E3.
  - pose proof (rat_read_bits W HW buf _ s2 12 R2 ltac:(lia) ltac:(lia)) as D. unfold ZFP_MODE_SHORT_BITS, ZFP_MODE_LONG_BITS.
    destruct (stream_read_bits W s2 12) as [v s3]. destruct D as [Ev R3].
    assert (Bv : 0 <= v < 4096).
    { rewrite Ev. pose proof (bitsz_bound (firstn 12 (skipn (off + (k1 + k2)) (membits W buf)))) as BB.
      rewrite firstn_length_le in BB; [exact BB|]. rewrite skipn_length, membits_length by exact HW. lia. }
    set (Q := if ZFP_MODE_SHORT_MAX <? v then _ else ((k1 + k2 + 12)%nat, v, s3)).
    assert (A : exists k code s4, Q = ((k1 + k2 + k)%nat, code, s4) /\ (k = 12 \/ k = 64)%nat /\ 0 <= code < 2 ^ 64 /\
      rat W buf (off + (k1 + k2 + k)) s4).
    { unfold Q. destruct (ZFP_MODE_SHORT_MAX <? v).
      - change (64 - 12)%nat with 52%nat.
        pose proof (rat_read_bits W HW buf _ s3 52 R3 ltac:(lia) ltac:(lia)) as D4. destruct (stream_read_bits W s3 52) as [w s4]. destruct D4 as [_ R4].
        exists 64%nat. do 2 eexists. split; [f_equal; f_equal; lia|]. split; [auto|]. split; [unfold u64; apply Z.mod_pos_bound; lia|].
        replace (off + (k1 + k2 + 64))%nat with (off + (k1 + k2) + 12 + 52)%nat by lia. exact R4.
      - exists 12%nat, v, s3. split; [reflexivity|]. split; [auto|]. split; [lia|].
        replace (off + (k1 + k2 + 12))%nat with (off + (k1 + k2) + 12)%nat by lia. exact R3. }
    destruct A as (k & code & s4 & -> & Hk & Bc & R4).
    pose proof (C19_set_mode p code Bc) as SM. destruct (set_mode p code) as [md q].
    destruct SM as [[-> ->]|(N & _ & V)]; [split; [apply R4|auto]|].
    destruct md; [congruence| | | |];
      (split; [apply R4|]; right; split; [apply R4|]; split; [exists k; rewrite <- K1, <- K2; auto|auto]).
  - split; [apply R2|]. right. split; [apply R2|]. split; [exists 0%nat; rewrite <- K1, <- K2; split; [lia|reflexivity]|auto].
Qed.
Print Assumptions C18_accept.

(** sizes beyond the field widths do not survive: 4097 x 1 x 1 x 1 comes back as 1 x 2 x 1 x 1 *)
Theorem C18_large_sizes_refuted : exists t f,
  t <> t_none /\ sizes f <> [] /\ sizes (snd (set_metadata f (metadata t f))) <> sizes f.
Proof.
  exists t_double, (mk_field 4097 1 1 1 0 0 0 0 0). split; [discriminate|]. split; [discriminate|].
  assert (E : map Z.of_nat (sizes (snd (set_metadata (mk_field 4097 1 1 1 0 0 0 0 0) (metadata t_double (mk_field 4097 1 1 1 0 0 0 0 0))))) = [1; 2; 1; 1]) by (vm_compute; reflexivity).
  intros H. rewrite H in E. apply (f_equal (fun l => nth 0 l 0 =? 1)) in E. vm_compute in E. discriminate.
Qed.
Print Assumptions C18_large_sizes_refuted.

(* ------------------------------------------------------------------------------------ *)
(** * C15: the size bound for output buffers *)

(** the most bits one block can take with the given parameters *)
Definition block_bound (p : params) (t : ztype) (d : nat) : Z :=
  let P := match t with t_int64 | t_double => 64 | _ => 32 end in
  let head := match t with t_float => 9 | t_double => 12 | _ => 1 end in
  Z.max (minbits p) (Z.min (maxbits p) (head + 4 ^ Z.of_nat d * (Z.min (maxprec p) P + 1) - 1)).

(** no 32-bit or 64-bit overflow in the computation of the bound: each size at most 2^32 - 4,
    and fewer than 2^64 - 211 bits in all *)
Definition size_computable (p : params) (t : ztype) (f : field) : Prop :=
  let blocks n := (Z.max (Z.of_nat n) 1 + 3) / 4 in
  Forall (fun n => Z.of_nat n + 3 < 2 ^ 32) [fnx f; fny f; fnz f; fnw f] /\
  blocks (fnx f) * blocks (fny f) * blocks (fnz f) * blocks (fnw f) * Z.max 1 (block_bound p t (zfp_field_dimensionality f)) < 2 ^ 64 - 211.

Lemma pow4 d : 2 ^ (2 * Z.of_nat d) = 4 ^ Z.of_nat d.
Proof. change 4 with (2 ^ 2). rewrite <- Z.pow_mul_r by lia. reflexivity. Qed.

Lemma four_blocks n : (0 < n)%nat -> Z.of_nat (blocks_along n) = (Z.max (Z.of_nat n) 1 + 3) / 4.
Proof. intros H. unfold blocks_along. rewrite Nat2Z.inj_div, Nat2Z.inj_add. f_equal. lia. Qed.

Lemma blocks_in_le f :
  let blocks n := (Z.max (Z.of_nat n) 1 + 3) / 4 in
  Z.of_nat (blocks_in (sizes f)) <= blocks (fnx f) * blocks (fny f) * blocks (fnz f) * blocks (fnw f) /\
  1 <= blocks (fnx f) /\ 1 <= blocks (fny f) /\ 1 <= blocks (fnz f) /\ 1 <= blocks (fnw f).
Proof.
  cbv zeta.
  assert (P : forall n, 1 <= (Z.max (Z.of_nat n) 1 + 3) / 4).
  { intros n. apply Z.div_le_lower_bound; lia. }
  split; [|auto]. pose proof (P (fnx f)) as PX. pose proof (P (fny f)) as PY. pose proof (P (fnz f)) as PZ. pose proof (P (fnw f)) as PW. clear P.
  destruct (sizes_cases f) as [(D & E & _)|[(D & E & _ & P)|[(D & E & _ & P)|[(D & E & _ & P)|(D & E & _ & P)]]]];
    rewrite E; unfold blocks_in; cbn [map fold_right].
  - change (Z.of_nat 1) with 1. set (a := _ / 4) in *. set (b := (Z.max (Z.of_nat (fny f)) 1 + 3) / 4) in *.
    set (c := (Z.max (Z.of_nat (fnz f)) 1 + 3) / 4) in *. set (e := (Z.max (Z.of_nat (fnw f)) 1 + 3) / 4) in *. clearbody a b c e.
    assert (1 <= a * b) by nia. assert (1 <= a * b * c) by nia. nia.
  - rewrite !Nat2Z.inj_mul, !four_blocks by lia. change (Z.of_nat 1) with 1. set (a := _ / 4) in *. set (b := (Z.max (Z.of_nat (fny f)) 1 + 3) / 4) in *.
    set (c := (Z.max (Z.of_nat (fnz f)) 1 + 3) / 4) in *. set (e := (Z.max (Z.of_nat (fnw f)) 1 + 3) / 4) in *. clearbody a b c e.
    assert (a <= a * b) by nia. assert (a <= a * b * c) by nia. nia.
  - rewrite !Nat2Z.inj_mul, !four_blocks by lia. change (Z.of_nat 1) with 1. set (a := _ / 4) in *. set (b := (Z.max (Z.of_nat (fny f)) 1 + 3) / 4) in *.
    set (c := (Z.max (Z.of_nat (fnz f)) 1 + 3) / 4) in *. set (e := (Z.max (Z.of_nat (fnw f)) 1 + 3) / 4) in *. clearbody a b c e.
    assert (1 <= a * b) by nia. assert (a * b <= a * b * c) by nia. nia.
  - rewrite !Nat2Z.inj_mul, !four_blocks by lia. change (Z.of_nat 1) with 1. set (a := _ / 4) in *. set (b := (Z.max (Z.of_nat (fny f)) 1 + 3) / 4) in *.
    set (c := (Z.max (Z.of_nat (fnz f)) 1 + 3) / 4) in *. set (e := (Z.max (Z.of_nat (fnw f)) 1 + 3) / 4) in *. clearbody a b c e.
    assert (1 <= a * b) by nia. assert (1 <= a * b * c) by nia. nia.
  - rewrite !Nat2Z.inj_mul, !four_blocks by lia. change (Z.of_nat 1) with 1. lia.
Qed.

(** the bound is exactly the header, the worst case of every block of the 4-dimensional array
    with unused extents counted as one, rounded up to a whole number of words, in bytes *)
Theorem C15_value : forall W p t f,
  word_size W -> 0 <= minbits p -> 0 <= maxbits p -> t <> t_none -> sizes f <> [] -> size_computable p t f ->
  let blocks n := (Z.max (Z.of_nat n) 1 + 3) / 4 in
  let bits := 148 + blocks (fnx f) * blocks (fny f) * blocks (fnz f) * blocks (fnw f) * block_bound p t (zfp_field_dimensionality f) in
  bits <= 8 * maximum_size W p t f < bits + Z.of_nat W /\ (8 * maximum_size W p t f) mod Z.of_nat W = 0.
Proof.
  intros W p t f HW Hm HM Ht Hs (HS & HT). cbv zeta in *.
  destruct (blocks_in_le f) as (_ & BX & BY & BZ & BW).
  unfold maximum_size. set (d := zfp_field_dimensionality f) in *.
  assert (D0 : (Z.of_nat d =? 0) = false).
  { apply Z.eqb_neq. unfold d. destruct (sizes_cases f) as [(D & E & _)|[(D & _)|[(D & _)|[(D & _)|(D & _)]]]]; try (rewrite D; lia). congruence. }
  rewrite D0.
  assert (U : forall n, Z.of_nat n + 3 < 2 ^ 32 -> uint (Z.max (Z.of_nat n) 1 + 3) / 4 = (Z.max (Z.of_nat n) 1 + 3) / 4).
  { intros n Hn. unfold uint. rewrite Z.mod_small by lia. reflexivity. }
  repeat match goal with H : Forall _ (_ :: _) |- _ => apply Forall_cons_iff in H; destruct H as [? H] end.
  rewrite !U by assumption. clear U.
  set (a := (Z.max (Z.of_nat (fnx f)) 1 + 3) / 4) in *. set (b := (Z.max (Z.of_nat (fny f)) 1 + 3) / 4) in *.
  set (c := (Z.max (Z.of_nat (fnz f)) 1 + 3) / 4) in *. set (e := (Z.max (Z.of_nat (fnw f)) 1 + 3) / 4) in *. clearbody a b c e.
  set (mb := block_bound p t d) in *.
  set (g := match t with t_none => 0 | _ => _ end).
  assert (G : g = Z.ldiff (size_t (ZFP_HEADER_MAX_BITS + size_t (size_t (size_t (size_t (a * b) * c) * e) * mb) + Z.of_nat W - 1)) (Z.of_nat W - 1) / 8).
  { unfold g. rewrite pow4.
    assert (M : forall h P, Z.max (Z.min (h + (4 ^ Z.of_nat d - 1 + 4 ^ Z.of_nat d * Z.min (maxprec p) P)) (maxbits p)) (minbits p) =
      Z.max (minbits p) (Z.min (maxbits p) (h + 4 ^ Z.of_nat d * (Z.min (maxprec p) P + 1) - 1))).
    { intros h P. set (x := 4 ^ Z.of_nat d). clearbody x. set (y := Z.min (maxprec p) P). clearbody y.
      replace (h + (x - 1 + x * y)) with (h + x * (y + 1) - 1) by ring. lia. }
    unfold mb, block_bound. destruct t; [congruence| | | |]; cbv zeta; rewrite M; reflexivity. }
  rewrite G. clear g G.
  assert (MB : 0 <= mb) by (unfold mb, block_bound; lia).
  assert (P1 : 1 <= a * b) by nia. assert (P2 : 1 <= a * b * c) by nia. assert (P3 : 1 <= a * b * c * e) by nia.
  assert (Q3 : a * b * c <= a * b * c * e) by nia. assert (Q2 : a * b <= a * b * c) by nia.
  assert (Q4 : a * b * c * e * mb <= a * b * c * e * Z.max 1 mb) by (apply Z.mul_le_mono_nonneg_l; lia).
  assert (Q5 : a * b * c * e <= a * b * c * e * Z.max 1 mb) by nia.
  set (T := a * b * c * e * Z.max 1 mb) in *. clearbody T.
  assert (E1 : size_t (a * b) = a * b) by (unfold size_t; apply Z.mod_small; lia). rewrite E1.
  assert (E2 : size_t (a * b * c) = a * b * c) by (unfold size_t; apply Z.mod_small; lia). rewrite E2.
  assert (E3 : size_t (a * b * c * e) = a * b * c * e) by (unfold size_t; apply Z.mod_small; lia). rewrite E3.
  set (N := a * b * c * e * mb) in *.
  assert (E4 : size_t N = N) by (unfold size_t; apply Z.mod_small; unfold N; split; [nia|lia]). rewrite E4.
  assert (N0 : 0 <= N) by (unfold N; nia). clearbody N. unfold ZFP_HEADER_MAX_BITS.
  assert (W8 : exists w, Z.of_nat W = 8 * w /\ 1 <= w <= 8).
  { destruct HW as [-> |[-> |[-> | ->]]]; [exists 1|exists 2|exists 4|exists 8]; lia. }
  destruct W8 as (w & W8 & Hw).
  unfold size_t. rewrite Z.mod_small by lia. rewrite ldiff_word by (auto; lia).
  set (v := 148 + N + Z.of_nat W - 1). pose proof (Z.div_mod v (Z.of_nat W) ltac:(lia)) as DM. pose proof (Z.mod_pos_bound v (Z.of_nat W) ltac:(lia)) as MP.
  assert (EV : v - v mod Z.of_nat W = w * (v / Z.of_nat W) * 8) by (rewrite W8 in *; nia).
  rewrite EV, Z.div_mul by lia. split; [unfold v in *; lia|].
  replace (8 * (w * (v / Z.of_nat W))) with (v / Z.of_nat W * Z.of_nat W) by (rewrite W8; ring).
  apply Z.mod_mul. lia.
Qed.
Print Assumptions C15_value.

(** the block coder zfp_compress uses for each scalar type *)
Definition type_enc (W : nat) (p : params) (t : ztype) (d : nat) : stream -> list Z -> option stream :=
  match t with
  | t_int32 => int_enc W 32 d (minbits p) (maxbits p) (maxprec p)
  | t_int64 => int_enc W 64 d (minbits p) (maxbits p) (maxprec p)
  | t_float => float_enc W 32 d (minbits p) (maxbits p) (maxprec p) (minexp p)
  | _ => float_enc W 64 d (minbits p) (maxbits p) (maxprec p) (minexp p)
  end.

(** arrays the coder is defined on *)
Definition content_ok (p : params) (t : ztype) (m : list Z) (f : field) : Prop :=
  let floats P := Z.of_nat (exp_bits P) + 1 <= maxbits p /\
    forall b, (b < blocks_in (sizes f))%nat ->
      codable_block P (zfp_field_dimensionality f) (array_block 0 m (fdata f) (sizes f) (array_strides f) b) in
  match t with
  | t_int32 => array_bounded (guard_max 32) m (fdata f) (sizes f) (array_strides f)
  | t_int64 => array_bounded (guard_max 64) m (fdata f) (sizes f) (array_strides f)
  | t_float => floats 32%nat
  | t_double => floats 64%nat
  | t_none => False
  end.

Lemma code_exists W p t f m : word_size W -> valid p -> maxbits p < 2 ^ 31 -> (1 <= zfp_field_dimensionality f)%nat ->
  content_ok p t m f ->
  exists (code : list Z -> list bool) (ok : list Z -> Prop),
    (forall s L b, ok b -> wat W s L -> (length L + length (code b) <= cap W s)%nat ->
       type_enc W p t (zfp_field_dimensionality f) s b = Some (put W s (code b))) /\
    (forall b, (b < blocks_in (sizes f))%nat -> let B := array_block 0 m (fdata f) (sizes f) (array_strides f) b in
       ok B /\ Z.of_nat (length (code B)) <= block_bound p t (zfp_field_dimensionality f)).
Proof.
  intros HW [V1 V2] VM HD HC. destruct (dim_dims f HD) as (DD & LN & HPos). set (d := zfp_field_dimensionality f) in *.
  pose proof (word_size_range W HW) as HWr.
  assert (F4 : Z.of_nat (4 ^ d) = 4 ^ Z.of_nat d) by (rewrite Nat2Z.inj_pow; reflexivity).
  assert (F1 : 1 <= 4 ^ Z.of_nat d) by (pose proof (Z.pow_pos_nonneg 4 (Z.of_nat d) ltac:(lia) ltac:(lia)); lia).
  assert (FB : forall P, int_width P -> Z.of_nat (full_bits (Nat.min P (Z.to_nat (maxprec p))) (4 ^ d)) = 4 ^ Z.of_nat d * (Z.min (maxprec p) (Z.of_nat P) + 1) - 1).
  { intros P HP. unfold full_bits. rewrite Nat2Z.inj_sub by (destruct (4 ^ d)%nat eqn:E; [lia|lia]).
    rewrite Nat2Z.inj_add, Nat2Z.inj_mul, Nat2Z.inj_min, Z2Nat.id, F4 by lia.
    replace (Z.min (Z.of_nat P) (maxprec p)) with (Z.min (maxprec p) (Z.of_nat P)) by lia. change (Z.of_nat 1) with 1. ring. }
  assert (INT : forall P, int_width P -> array_bounded (guard_max P) m (fdata f) (sizes f) (array_strides f) ->
    exists (code : list Z -> list bool) (ok : list Z -> Prop),
    (forall s L b, ok b -> wat W s L -> (length L + length (code b) <= cap W s)%nat ->
       int_enc W P d (minbits p) (maxbits p) (maxprec p) s b = Some (put W s (code b))) /\
    (forall b, (b < blocks_in (sizes f))%nat -> let B := array_block 0 m (fdata f) (sizes f) (array_strides f) b in
       ok B /\ Z.of_nat (length (code B)) <= Z.max (minbits p) (Z.min (maxbits p) (1 + 4 ^ Z.of_nat d * (Z.min (maxprec p) (Z.of_nat P) + 1) - 1)))).
  { intros P HP HB. pose proof (array_blocks_ok P m (fdata f) (sizes f) (array_strides f) HPos HB) as BO. rewrite LN in BO.
    set (coeffs := fun b => match fwd_xform P d b with Some c => map (fun q => int2uint P (nth q c 0)) (perm_of d) | None => [] end).
    set (block_ok := fun b => length b = (4 ^ d)%nat /\ bounded (guard_max P) b).
    exists (fun b => block_bits P (minbits p) (maxbits p) (maxprec p) (coeffs b)), block_ok.
    split.
    - intros s L b Ho Hw Hc. 
      assert (B1 : blocks_ok P d [b]) by (constructor; [exact Ho|constructor]).
      destruct (encode_all_put W P d (minbits p) (maxbits p) (maxprec p) HW HP DD ltac:(lia) ltac:(lia) [b] B1 s L Hw) as [E _].
      { cbn [map concat]. rewrite app_nil_r. exact Hc. }
      cbn [encode_all map concat] in E. rewrite app_nil_r in E. unfold int_enc.
      destruct (encode_block W P d s (minbits p) (maxbits p) (maxprec p) b) as [[n s1]|]; [|discriminate].
      cbn [option_map snd]. injection E as _ E. rewrite E. reflexivity.
    - intros b Hb. cbv zeta. set (B := array_block 0 m (fdata f) (sizes f) (array_strides f) b).
      assert (OB : block_ok B).
      { unfold block_ok. rewrite <- LN. apply array_block_ok; assumption. }
      split; [exact OB|]. destruct OB as [Lb Fb].
      destruct (coeffs_spec P d (minbits p) (maxbits p) (maxprec p) HP DD B Lb Fb) as (c & _ & _ & X3 & _).
      pose proof (code_length P d (maxbits p) (maxprec p) (coeffs B) X3) as [C1 C2].
      unfold block_bits. rewrite padded_length.
      specialize (FB P HP). lia. }
  assert (FLT : forall P, int_width P -> Z.of_nat (exp_bits P) + 1 <= maxbits p ->
    (forall b, (b < blocks_in (sizes f))%nat -> codable_block P d (array_block 0 m (fdata f) (sizes f) (array_strides f) b)) ->
    exists (code : list Z -> list bool) (ok : list Z -> Prop),
    (forall s L b, ok b -> wat W s L -> (length L + length (code b) <= cap W s)%nat ->
       float_enc W P d (minbits p) (maxbits p) (maxprec p) (minexp p) s b = Some (put W s (code b))) /\
    (forall b, (b < blocks_in (sizes f))%nat -> let B := array_block 0 m (fdata f) (sizes f) (array_strides f) b in
       ok B /\ Z.of_nat (length (code B)) <= Z.max (minbits p) (Z.min (maxbits p) (Z.of_nat (exp_bits P) + 1 + 4 ^ Z.of_nat d * (Z.min (maxprec p) (Z.of_nat P) + 1) - 1)))).
  { intros P HP HE HB. destruct (spec_consts P HP) as (E1 & E2 & E3 & E4). rewrite E3 in *.
    exists (float_code P d (minbits p) (maxbits p) (maxprec p) (minexp p)), (float_ok P d (maxprec p) (minexp p)). split.
    - intros s L b Ho Hw Hc. apply (float_enc_put W P d (minbits p) (maxbits p) (maxprec p) (minexp p) HW HP DD ltac:(lia) ltac:(lia) ltac:(lia) s L b Ho Hw Hc).
    - intros b Hb. cbv zeta. set (B := array_block 0 m (fdata f) (sizes f) (array_strides f) b).
      pose proof (spec_codable P d B (maxprec p) (minexp p) HP (HB b Hb)) as OK. split; [exact OK|].
      destruct (float_code_length W P d (minbits p) (maxbits p) (maxprec p) (minexp p) HW HP DD ltac:(lia) ltac:(lia) ltac:(lia) B OK) as [C1 C2].
      specialize (FB P HP). lia. }
  unfold content_ok, type_enc, block_bound in *. fold d in HC |- *. destruct t; [contradiction| | | |]; cbv zeta in *.
  - exact (INT 32%nat (or_introl eq_refl) HC).
  - exact (INT 64%nat (or_intror eq_refl) HC).
  - destruct HC as [HC1 HC2]. exact (FLT 32%nat (or_introl eq_refl) HC1 HC2).
  - destruct HC as [HC1 HC2]. exact (FLT 64%nat (or_intror eq_refl) HC1 HC2).
Qed.

Lemma feed_appends W enc (code : list Z -> list bool) (ok : list Z -> Prop) : word_size W ->
  (forall s L b, ok b -> wat W s L -> (length L + length (code b) <= cap W s)%nat -> enc s b = Some (put W s (code b))) ->
  forall bs, Forall ok bs -> forall s L, wat W s L -> (length L + length (concat (map code bs)) <= cap W s)%nat ->
  feed enc s bs = Some (put W s (concat (map code bs))).
Proof.
  intros HW EP bs F. pose proof (word_size_range W HW) as HWr. induction F as [|b bs Hb _ IH]; intros s L Hw Hc; [reflexivity|].
  cbn [feed map concat] in *. rewrite app_length in Hc. rewrite (EP s L b Hb Hw) by lia.
  destruct (put_wrote W HWr s L (code b) Hw ltac:(lia)) as (_ & C & Hw').
  rewrite (IH _ _ Hw') by (rewrite app_length, C; lia). rewrite put_app. reflexivity.
Qed.

(** A buffer of zfp_stream_maximum_size bytes is enough: compressing the array, starting
    anywhere behind a header, stays inside the buffer and after the flush the stream is no
    larger than the bound. *)
Theorem C15_fits : forall W p t f m junk buf off,
  word_size W -> buffer_ok W buf -> valid p -> maxbits p < 2 ^ 31 ->
  sizes f <> [] -> size_computable p t f -> content_ok p t m f ->
  int_strides f -> length junk = (4 ^ zfp_field_dimensionality f)%nat -> fits m (fdata f) (sizes f) (array_strides f) ->
  8 * maximum_size W p t f <= Z.of_nat (W * length buf) -> (off <= 148)%nat ->
  exists s, compress Z 0 (type_enc W p t (zfp_field_dimensionality f)) junk f m (stream_wseek W (stream_open buf) off) = Some s /\
    fault s = false /\
    let s' := snd (stream_flush W s) in
    fault s' = false /\ Z.of_nat (W * stream_size s') <= 8 * maximum_size W p t f.
Proof.
  intros W p t f m junk buf off HW Hb V VM Hs SC HC HI HJ HF HB Ho. pose proof (word_size_range W HW) as HWr.
  assert (T0 : t <> t_none) by (intros ->; exact HC).
  assert (HD : (1 <= zfp_field_dimensionality f)%nat).
  { destruct (sizes_cases f) as [(D & E & _)|[(D & _)|[(D & _)|[(D & _)|(D & _)]]]]; try (rewrite D; lia). congruence. }
  destruct (C15_value W p t f HW ltac:(destruct V; lia) ltac:(destruct V; lia) T0 Hs SC) as [BV BM].
  destruct (code_exists W p t f m HW V VM HD HC) as (code & ok & EP & EL).
  destruct (blocks_in_le f) as (BL & BX & BY & BZ & BW). cbv zeta in *.
  set (d := zfp_field_dimensionality f) in *. set (mb := block_bound p t d) in *.
  set (prod := _ * _ * _ * _) in BL. fold prod in BV.
  assert (MB : 0 <= mb) by (unfold mb, block_bound; destruct V; lia).
  set (bs := array_blocks 0 m (fdata f) (sizes f) (array_strides f)).
  assert (OK : Forall ok bs).
  { apply Forall_forall. intros x X. apply in_map_iff in X as (b & <- & I). apply in_seq in I. apply EL. lia. }
  set (all := concat (map code bs)).
  assert (LA : Z.of_nat (length all) <= prod * mb).
  { destruct (concat_sum code (blocks_in (sizes f)) 0 (Z.to_nat mb) (array_block 0 m (fdata f) (sizes f) (array_strides f))) as [_ CS].
    { intros b Hbb. destruct (EL b Hbb) as [_ E]. lia. }
    fold (array_blocks 0 m (fdata f) (sizes f) (array_strides f)) in CS. fold bs in CS. fold all in CS.
    apply Z.le_trans with (Z.of_nat (blocks_in (sizes f)) * mb); [|apply Z.mul_le_mono_nonneg_r; assumption].
    rewrite <- (Z2Nat.id mb) by exact MB. rewrite <- Nat2Z.inj_mul. lia. }
  assert (LT : Z.of_nat (off + length all) <= 8 * maximum_size W p t f) by lia.
  assert (Hc : (off + length all <= W * length buf)%nat) by lia.
  destruct (start_wat W buf off HW Hb ltac:(lia)) as (Hw & L0 & Hcap).
  pose proof (feed_appends W _ code ok HW EP bs OK _ _ Hw ltac:(fold all; lia)) as E. fold all in E.
  destruct (put_wrote W HWr _ _ all Hw ltac:(lia)) as (_ & C & Hw').
  exists (put W (stream_wseek W (stream_open buf) off) all). rewrite C17_compress by auto. fold bs. split; [exact E|].
  split; [apply Hw'|]. unfold cap in C, Hcap.
  pose proof (flush_wat W HWr _ _ Hw') as FW. destruct (stream_flush W _) as [k s']. rewrite app_length, L0 in FW.
  destruct FW as (K & Fw & Ff & Fb); [lia|]. cbn [snd]. split; [apply Fw|].
  pose proof (wat_tell W HWr _ _ Fw) as T. unfold stream_wtell in T. rewrite Fb in T. unfold stream_size.
  rewrite !app_length, repeat_length, L0 in T.
  assert (PK : (k < W)%nat).
  { rewrite K. unfold padding. apply Nat.mod_upper_bound. lia. }
  apply Z.mod_divide in BM; [|lia]. destruct BM as [q Q].
  assert (Z.of_nat (ptr s') < q + 1); [|nia].
  apply Z.nle_gt. intros Hq. assert (Z.of_nat W * (q + 1) <= Z.of_nat W * Z.of_nat (ptr s')) by (apply Z.mul_le_mono_nonneg_l; lia).
  assert (Z.of_nat W * Z.of_nat (ptr s') = Z.of_nat (off + length all + k)) by (rewrite <- Nat2Z.inj_mul; lia). lia.
Qed.
Print Assumptions C15_fits.

Example C15_nonvacuous :
  let p := mk_params 1 40 64 (-1074) in let f := mk_field 5 3 0 0 0 0 0 0 0 in
  let m := map (fun i => Z.of_nat (i * i)) (seq 0 15) in
  valid p /\ size_computable p t_int32 f /\ content_ok p t_int32 m f /\ int_strides f /\
  fits m (fdata f) (sizes f) (array_strides f) /\ maximum_size 64 p t_int32 f = 32.
Proof.
  cbv zeta. split; [split; cbn; lia|]. split; [split; [repeat constructor; cbn; lia|vm_compute; reflexivity]|].
  assert (IN : forall cs, inside cs [5; 3]%nat -> exists x y, cs = [x; y] /\ (x < 5)%nat /\ (y < 3)%nat).
  { intros cs H. inversion H as [|x ? ? ? Hx H1]; subst. inversion H1 as [|y ? ? ? Hy H2]; subst. inversion H2; subst. eauto. }
  split; [|split; [repeat constructor; vm_compute; discriminate|split; [|vm_compute; reflexivity]]].
  - intros cs H. change (sizes _) with [5; 3]%nat in H. apply IN in H as (x & y & -> & Hx & Hy).
    do 5 (destruct x as [|x]; [do 3 (destruct y as [|y]; [vm_compute; discriminate|]); lia|]). lia.
  - intros cs H. change (sizes _) with [5; 3]%nat in H. apply IN in H as (x & y & -> & Hx & Hy).
    change (fdata _) with 0. change (array_strides _) with [1; 5]. cbn [addr length map seq]. lia.
Qed.

(** a 1-D array of 2^32 - 1 values: the block count wraps to 0 and the bound is the header only *)
Theorem C15_wrap_refuted : exists p t f, valid p /\ t <> t_none /\ sizes f <> [] /\
  Z.of_nat (fnx f) < 2 ^ 32 /\ maximum_size 64 p t f = 24.
Proof.
  set (n := Z.to_nat (2 ^ 32 - 1)). assert (E : Z.of_nat n = 2 ^ 32 - 1) by (unfold n; apply Z2Nat.id; lia). clearbody n.
  exists (mk_params 1 40 64 (-1074)), t_int32, (mk_field n 0 0 0 0 0 0 0 0).
  assert (N0 : (n =? 0)%nat = false) by (apply Nat.eqb_neq; lia).
  split; [split; cbn; lia|]. split; [discriminate|].
  split; [unfold sizes, zfp_field_dimensionality; cbn [fnx fny fnz fnw]; rewrite N0; discriminate|].
  split; [cbn [fnx]; lia|]. unfold maximum_size, zfp_field_dimensionality. cbn [fnx fny fnz fnw]. rewrite N0, E. vm_compute. reflexivity.
Qed.
Print Assumptions C15_wrap_refuted.
