(** Properties of zfp's compressed arrays: C23 and C24.

    The specification is in CacheSpec.v (contents of an array) and CacheHistory.v (what every
    operation may observe); the values are those of FloatSpec.v. *)
From Coq Require Import ZArith List Bool Arith Lia ZifyNat.
From Verif Require Import ListAux Bits Bitstream BitstreamProofs BitstreamProofs2 StreamSpec StreamRuns.
From Verif Require Import EmbedSpec ZfpCodec ZfpCodecProofs ZfpCodecProofs2 EmbedRuns ZfpXform BlockSpec BlockProofs PropertiesZfpEmbed PropertiesZfpBlock.
From Verif Require Import XformProofs ZfpArray ZfpApi ZfpFloat FloatProofs FloatSpec PropertiesZfpFloat PropertiesZfpApi ArraySpec.
From Verif Require Import ZfpCache CacheSpec CacheHistory ArrayProofs ArrayProofs3 CacheGeom CacheStore CacheTags CacheProofs.
Import ListNotations.
Local Open Scope Z_scope.
Notation sizes := ZfpCache.sizes.
Notation stored := CacheSpec.stored.
Notation compress_blocks := CacheSpec.compress_blocks.

(** ** The block coder of an array *)
Section Coder.
Variables (W P d : nat) (bits : Z).
(** the parameters of a fixed rate, zfp.c:447-450 *)
Definition array_enc := float_enc W P d bits bits 64 (-1074).
Definition array_dec := float_dec W P d bits bits 64 (-1074).
(** what a block coded alone decodes to *)
Definition array_round (b : list Z) : option (option (list Z)) :=
  match array_enc (stream_wseek W (stream_open (repeat 0 (Z.to_nat bits / W)%nat)) 0) b with
  | Some s => Some (snd (array_dec (stream_rseek W (snd (stream_flush W s)) 0)))
  | None => None
  end.
End Coder.
Definition finite_value (P : nat) : Z -> Prop := below P (max_exp P + 1).
Definition scalar_type (P : nat) : ztype := if (P =? 32)%nat then t_float else t_double.
Definition scalar_bytes (P : nat) : Z := Z.of_nat P / 8.

Lemma finite_range P k : int_width P -> finite_value P k <-> Z.abs k < 2 ^ (EBIAS P + 1 + U P).
Proof. intros HP. destruct (spec_consts P HP) as (E1 & E2 & _). unfold finite_value, below. rewrite E1, E2. tauto. Qed.

Lemma lift_at_length f l b b' : lift_at f l b = Some b' -> length b' = length b.
Proof.
  unfold lift_at. destruct l as [off s]. destruct (nth_error b off) as [x|]; [|discriminate]. destruct (nth_error b (off + s)) as [y|]; [|discriminate].
  destruct (nth_error b (off + 2 * s)) as [z|]; [|discriminate]. destruct (nth_error b (off + 3 * s)) as [w|]; [|discriminate]. cbn [bind].
  destruct (f (x, y, z, w)) as [[[[x' y'] z'] w']|]; [|discriminate]. cbn [bind]. intros E. injection E as <-. rewrite !upd_length'. reflexivity.
Qed.
Lemma lift_lines_length f ls : forall b b', lift_lines f ls b = Some b' -> length b' = length b.
Proof.
  induction ls as [|l ls IH]; intros b b' E; cbn [lift_lines] in E; [injection E as <-; reflexivity|].
  destruct (lift_at f l b) as [b1|] eqn:E1; [|discriminate]. cbn [bind] in E. rewrite (IH _ _ E). apply (lift_at_length _ _ _ _ E1).
Qed.
Lemma inv_xform_length P d b b' : inv_xform P d b = Some b' -> length b' = length b.
Proof.
  assert (BL : forall (x : option (list Z)) (g : list Z -> option (list Z)) (b0 c : list Z), (forall y, x = Some y -> length y = length b0) -> (forall y z, g y = Some z -> length z = length y) -> bind x g = Some c -> length c = length b0).
  { intros x g b0 c H1 H2 E. destruct x as [y|]; [|discriminate]. cbn [bind] in E. rewrite (H2 _ _ E). apply H1. reflexivity. }
  unfold inv_xform. destruct d as [|[|[|[|[|]]]]]; try discriminate; unfold inv_xform1, inv_xform2, inv_xform3, inv_xform4.
  - apply lift_lines_length.
  - apply BL; [apply lift_lines_length|apply lift_lines_length].
  - apply BL; [apply lift_lines_length|]. intros y z. apply BL; apply lift_lines_length.
  - apply BL; [apply lift_lines_length|]. intros y z. apply BL; [apply lift_lines_length|]. intros y' z'. apply BL; apply lift_lines_length.
Qed.
Lemma inv_order_length P us : forall ps b b', inv_order P us ps b = Some b' -> length b' = length b.
Proof.
  induction us as [|u us IH]; intros [|p ps] b b' E; cbn [inv_order] in E; try discriminate; try (injection E as <-; reflexivity).
  destruct (p <? length b)%nat; [|discriminate]. rewrite (IH _ _ _ E). apply upd_length'.
Qed.

Section Instance.
Variables (W P d : nat) (bits : Z).
Hypothesis HW0 : word_size W.
Hypothesis HP : int_width P.
Hypothesis HD : (1 <= d <= 3)%nat.
Hypothesis HB : Z.of_nat (EBITS P) + 1 <= bits < 2 ^ 31.
Hypothesis HBW : bits mod Z.of_nat W = 0.
Let HDd : dims d. Proof. unfold dims. lia. Qed.
Let HW := word_size_range W HW0.
Let n := Z.to_nat bits.
Let ok := float_ok P d 64 (-1074).
Let code := float_code P d bits bits 64 (-1074).
Let rec := float_recon P d bits 64 (-1074).

Lemma inst_mod : (n mod W = 0)%nat.
Proof. apply Nat2Z.inj. rewrite Nat2Z.inj_mod. unfold n. rewrite Z2Nat.id by lia. exact HBW. Qed.
Lemma inst_code_len b : ok b -> length (code b) = n.
Proof. intros OK. destruct (float_code_length W P d bits bits 64 (-1074) HW0 HP HDd HB ltac:(lia) ltac:(lia) b OK) as [H _]. unfold n, code. lia. Qed.
Lemma inst_rec_fine b q : ok b -> rec b = Some q -> fine d (finite_value P) q.
Proof.
  intros OK E. unfold rec, float_recon in E. destruct (_ =? 0).
  - injection E as <-. split; [apply repeat_length|]. apply Forall_forall. intros x X. apply repeat_spec in X. subst x. apply finite_range; [exact HP|]. cbn [Z.abs].
    apply Z.pow_pos_nonneg; [lia|]. destruct (scalar_consts P HP) as [H|H]; destruct H as (_ & _ & -> & _ & ->); lia.
  - unfold recon in E. destruct (inv_order _ _ _ _) as [ib0|] eqn:E0; [|discriminate]. cbn [bind] in E. destruct (inv_xform P d ib0) as [ib|] eqn:E1; [|discriminate]. cbn [bind] in E.
    apply inv_order_length in E0. apply inv_xform_length in E1. rewrite repeat_length in E0.
    unfold inv_cast in E. cbv zeta in E. set (r := map _ ib) in E. destruct (forallb _ r) eqn:F; [|discriminate]. injection E as <-.
    split; [unfold r; rewrite map_length, E1, E0; reflexivity|]. apply Forall_forall. intros x X. apply finite_range; [exact HP|].
    rewrite forallb_forall in F. specialize (F x X). apply Z.ltb_lt in F. exact F.
Qed.
Lemma inst_zero_words : buffer_ok W (repeat 0 (n / W)%nat) /\ (W * length (repeat 0%Z (n / W)%nat))%nat = n.
Proof.
  split.
  - apply Forall_forall. intros x X. apply repeat_spec in X. subst x. split; [lia|]. apply Z.pow_pos_nonneg; lia.
  - rewrite repeat_length. pose proof inst_mod. pose proof (Nat.div_mod n W ltac:(lia)). lia.
Qed.
Lemma inst_round b : ok b -> array_round W P d bits b = Some (rec b).
Proof.
  intros OK. destruct inst_zero_words as [Hb HL]. unfold array_round. fold n. pose proof (inst_code_len b OK) as LC.
  destruct (start_wat W (repeat 0 (n / W)%nat) 0 HW0 Hb ltac:(lia)) as (Hw & L0 & Hcap).
  unfold array_enc. rewrite (float_enc_put W P d bits bits 64 (-1074) HW0 HP HDd) with (L := firstn 0 (membits W (repeat 0 (n / W)%nat))); try assumption; try lia.
  2:{ fold code. rewrite L0, LC, Hcap. lia. }
  fold code. destruct (flush_readable W HW (repeat 0 (n / W)%nat) 0 (code b) Hb ltac:(lia)) as (R & _).
  destruct (float_dec_read W P d bits bits 64 (-1074) HW0 HP HDd) with (m := mem (snd (stream_flush W (put W (stream_wseek W (stream_open (repeat 0 (n / W)%nat)) 0) (code b))))) (pos := 0%nat)
    (s := stream_rseek W (snd (stream_flush W (put W (stream_wseek W (stream_open (repeat 0 (n / W)%nat)) 0) (code b)))) 0) (b := b) as (s' & D & _); try assumption; try lia.
  unfold array_dec. rewrite D. reflexivity.
Qed.
Lemma inst_cases b : fine d (finite_value P) b -> (ok b /\ array_round W P d bits b = Some (rec b)) \/ ((forall s, array_enc W P d bits s b = None) /\ array_round W P d bits b = None).
Proof.
  intros [L F]. assert (IR : in_range P b) by (eapply Forall_impl; [|exact F]; intros k Hk; apply finite_range; assumption).
  destruct (exponent_block_spec P b HP IR) as (E1 & _ & E3 & _).
  destruct (Z_le_gt_dec (Z.of_nat P - 2 - EBIAS P) (exponent_block P b)) as [GE|LT].
  { left. assert (OK : ok b) by (split; [exact L|]; split; [exact IR|auto]). split; [exact OK|apply inst_round; exact OK]. }
  destruct (Z.eq_dec (exponent_block P b) (- EBIAS P)) as [EZ|NZ].
  { left. assert (OK : ok b) by (split; [exact L|]; split; [exact IR|]; right; left; apply E3; exact EZ). split; [exact OK|apply inst_round; exact OK]. }
  right. assert (N : forall s, array_enc W P d bits s b = None).
  { intros s. unfold array_enc, float_enc, encode_float. cbv zeta.
    assert (PR : precision (exponent_block P b) 64 (-1074) d <> 0) by (unfold precision; destruct (scalar_consts P HP) as [H|H]; destruct H as (_ & _ & H & _); rewrite H in *; lia).
    destruct (Z.eqb_spec (precision (exponent_block P b) 64 (-1074) d) 0); [tauto|].
    destruct (Z.eqb_spec (exponent_block P b + EBIAS P) 0); [lia|]. unfold fwd_cast.
    destruct (Z.ltb_spec (EBIAS P) (Z.of_nat P - 2 - exponent_block P b)); [reflexivity|lia]. }
  split; [exact N|]. unfold array_round. rewrite N. reflexivity.
Qed.
Lemma inst_zero : ok (repeat 0 (4 ^ d)) /\ code (repeat 0 (4 ^ d)) = repeat false n /\ rec (repeat 0 (4 ^ d)) = Some (repeat 0 (4 ^ d)).
Proof.
  assert (FZ : Forall (fun k => k = 0) (repeat 0 (4 ^ d))) by (apply Forall_forall; intros x X; apply repeat_spec in X; exact X).
  assert (IR : in_range P (repeat 0 (4 ^ d))).
  { eapply Forall_impl; [|exact FZ]. intros k ->. cbn [Z.abs]. apply Z.pow_pos_nonneg; [lia|]. destruct (scalar_consts P HP) as [H|H]; destruct H as (_ & _ & -> & _ & ->); lia. }
  destruct (exponent_block_spec P _ HP IR) as (_ & _ & E3 & _). apply E3 in FZ as EZ.
  assert (B0 : biased P d 64 (-1074) (repeat 0 (4 ^ d)) = 0) by (unfold biased; rewrite EZ; destruct (_ =? 0); lia).
  split; [split; [apply repeat_length|]; split; [exact IR|auto]|]. unfold code, rec, float_code, float_recon. rewrite B0. change (0 =? 0) with true. cbv iota. split; [|reflexivity].
  unfold padded. fold n. cbn [length]. assert (1 <= n)%nat by (unfold n; lia). replace n with (Datatypes.S (n - 1)) at 2 by lia. reflexivity.
Qed.
End Instance.

(** the rate of an array: set_rate of zfparray.h:63-69 *)
Definition array_rate (W P d : nat) (k bits : Z) : Prop :=
  0 <= k /\ 4 ^ Z.of_nat d * k < 2 ^ (31 + 1074) /\ bits < 2 ^ 31 /\
  exists p, set_rate W k (scalar_type P) d true = Some (bits, p) /\ p = mk_params bits bits 64 (-1074).

Lemma rate_facts W P d k bits : word_size W -> int_width P -> (1 <= d <= 3)%nat -> array_rate W P d k bits ->
  Z.of_nat (EBITS P) + 1 <= bits < 2 ^ 31 /\ bits mod Z.of_nat W = 0.
Proof.
  intros HW HP HD (K0 & K1 & B & p & E & _). destruct (C20_set_rate W k (scalar_type P) d true HW ltac:(lia) K0 K1) as (b0 & bits' & p' & E' & _ & _ & X & _).
  rewrite E in E'. injection E' as <- <-. destruct (X eq_refl) as [[X1 X2] X3]. split; [|exact X3]. split; [|exact B].
  destruct HP as [-> | ->]; vm_compute (scalar_type _) in *; vm_compute (EBITS _); lia.
Qed.

(* ------------------------------------------------------------------------------------ *)
(** * C23: the cache of a compressed array is transparent *)

(** every history of operations on a new array, for every word size, scalar type, number of
    dimensions, rate, cache configuration, initial cache size and contents of uninitialised
    memory, is one the specification allows: it reads the value last written, or, if the
    block was written back meanwhile, the value the block decodes to *)
Theorem C23_history : forall W P d k bits two_way fast_hash junk csize ns os,
  word_size W -> int_width P -> (1 <= d <= 3)%nat -> array_rate W P d k bits ->
  length junk = (4 ^ d)%nat -> array_size d ns -> line_count (scalar_bytes P) csize ns <= 2 ^ 31 ->
  valid_ops (finite_value P) (scalar_bytes P) d ns os ->
  let n := Z.to_nat bits in
  history W n (array_round W P d bits) (array_dec W P d bits) (zeros ns) os
    (option_map fst (run two_way fast_hash W n (array_enc W P d bits) (array_dec W P d bits) junk (scalar_bytes P)
       (new_array W n junk (scalar_bytes P) csize ns) os)).
Proof.
  intros W P d k bits two_way fast_hash junk csize ns os HW HP HD HR HJ HA HC HV n.
  destruct (rate_facts W P d k bits HW HP HD HR) as [HB HBW].
  assert (HDd : dims d) by (unfold dims; lia). assert (HB' : Z.of_nat (exp_bits P) + 1 <= bits < 2 ^ 31) by (destruct (spec_consts P HP) as (_ & _ & -> & _); exact HB).
  assert (HM : (n mod W = 0)%nat) by (eapply inst_mod; eassumption).
  assert (HZ : float_ok P d 64 (-1074) (repeat 0 (4 ^ d)) /\ float_code P d bits bits 64 (-1074) (repeat 0 (4 ^ d)) = repeat false n /\
    float_recon P d bits 64 (-1074) (repeat 0 (4 ^ d)) = Some (repeat 0 (4 ^ d))) by (eapply inst_zero; eassumption).
  assert (H1 : forall s L b, float_ok P d 64 (-1074) b -> wat W s L -> (length L + length (float_code P d bits bits 64 (-1074) b) <= cap W s)%nat ->
    array_enc W P d bits s b = Some (put W s (float_code P d bits bits 64 (-1074) b))) by (intros s L b; apply float_enc_put; try assumption; lia).
  assert (H2 : forall m pos s b, float_ok P d 64 (-1074) b -> readable W m pos (float_code P d bits bits 64 (-1074) b) s ->
    exists s', array_dec W P d bits s = (s', float_recon P d bits 64 (-1074) b) /\ rat W m (pos + length (float_code P d bits bits 64 (-1074) b)) s')
    by (intros m pos s b; apply float_dec_read; try assumption; lia).
  assert (H3 : forall b, float_ok P d 64 (-1074) b -> length (float_code P d bits bits 64 (-1074) b) = n) by (eapply inst_code_len; eassumption).
  assert (H4 : forall b q, float_ok P d 64 (-1074) b -> float_recon P d bits 64 (-1074) b = Some q -> fine d (finite_value P) q) by (eapply inst_rec_fine; eassumption).
  assert (H5 : forall b, fine d (finite_value P) b -> (float_ok P d 64 (-1074) b /\ array_round W P d bits b = Some (float_recon P d bits 64 (-1074) b)) \/
    ((forall s, array_enc W P d bits s b = None) /\ array_round W P d bits b = None)) by (apply inst_cases; assumption).
  destruct (new_array_ok W n d HW HM HD two_way fast_hash _ _ junk HJ (scalar_bytes P) (finite_value P) _ _ _ _ H2 H3 H4 H5 HZ csize ns HA HC) as (vs & R0).
  exact (run_history W n d HW HM HD two_way fast_hash _ _ junk HJ (scalar_bytes P) (finite_value P) _ _ _ _ H1 H2 H3 H4 H5 HZ os _ (zeros ns) vs R0 HV).
Qed.
Print Assumptions C23_history.

(** a value written is read back unchanged, whatever happened before *)
Lemma history_read_back W n rt dec cs v : forall os c ys, history W n rt dec c (os ++ [Update cs (fun _ => v); Get cs]) (Some ys) ->
  exists zs, ys = zs ++ [Nothing; Value v] /\ length zs = length os.
Proof.
  induction os as [|o os IH]; intros c ys H; cbn [app] in H.
  - inversion H as [| |? ? ? y1 c1 r1 A1 H1]; subst. clear H. destruct r1 as [zs1|]; [|discriminate]. cbn [option_map] in *.
    inversion H1 as [| |? ? ? y2 c2 r2 A2 H2]; subst. clear H1. destruct r2 as [zs2|]; [|discriminate]. cbn [option_map] in *.
    inversion H2; subst. clear H2.
    match goal with E : Some _ = Some ys |- _ => injection E as <- end.
    match goal with E : Some _ = Some zs1 |- _ => injection E as <- end.
    exists []. split; [|reflexivity]. cbn [app].
    inversion A1 as [|? ? r M1 E1 X1| | | | | | | | | | |]; subst. clear A1. destruct r as [d1|]; [|discriminate]. cbn [bind] in X1. destruct (current d1 cs) as [x|]; [|discriminate]. injection X1 as <- <-.
    inversion A2 as [? r M2 E2 X2| | | | | | | | | | | |]; subst. clear A2. destruct r as [d2|]; [|discriminate]. cbn [bind] in X2. destruct (current d2 cs) as [x2|] eqn:C2; [|discriminate]. injection X2 as <- <-.
    f_equal. f_equal. f_equal. f_equal.
    assert (CC : current (put_value d1 cs v) cs = Some v) by (cbn [put_value current]; destruct (list_eq_dec Nat.eq_dec cs cs); [reflexivity|congruence]).
    inversion M2 as [E|e NE LE CE E]; subst.
    + rewrite CC in C2. congruence.
    + unfold CacheSpec.compress_blocks in E. destruct (forallb _ _); [|discriminate]. injection E as <-.
      change ((if Nat.eqb e (block_of (csize (put_value d1 cs v)) cs) then match CacheSpec.rounded rt (put_value d1 cs v) (block_of (csize (put_value d1 cs v)) cs) with Some q => pick q (place_of cs) | None => None end
        else current (put_value d1 cs v) cs) = Some x2) in C2.
      destruct (Nat.eqb_spec e (block_of (csize (put_value d1 cs v)) cs)); [congruence|]. rewrite CC in C2. congruence.
  - inversion H as [| |? ? ? y1 c1 r1 A1 H1]; subst. destruct r1 as [zs1|]; [|discriminate]. cbn [option_map] in *.
    match goal with E : Some _ = Some ys |- _ => injection E as <- end.
    destruct (IH _ _ H1) as (zs & -> & L). exists (y1 :: zs). split; [reflexivity|cbn; lia].
Qed.
Theorem C23_read_back : forall W P d k bits two_way fast_hash junk csize ns os cs v ys a,
  word_size W -> int_width P -> (1 <= d <= 3)%nat -> array_rate W P d k bits ->
  length junk = (4 ^ d)%nat -> array_size d ns -> line_count (scalar_bytes P) csize ns <= 2 ^ 31 ->
  valid_ops (finite_value P) (scalar_bytes P) d ns (os ++ [Update cs (fun _ => v); Get cs]) ->
  let n := Z.to_nat bits in
  run two_way fast_hash W n (array_enc W P d bits) (array_dec W P d bits) junk (scalar_bytes P)
    (new_array W n junk (scalar_bytes P) csize ns) (os ++ [Update cs (fun _ => v); Get cs]) = Some (ys, a) ->
  exists zs, ys = zs ++ [Nothing; Value v] /\ length zs = length os.
Proof.
  intros W P d k bits two_way fast_hash junk csize ns os cs v ys a HW HP HD HR HJ HA HC HV n E.
  pose proof (C23_history W P d k bits two_way fast_hash junk csize ns _ HW HP HD HR HJ HA HC HV) as H. cbv zeta in H. fold n in H. rewrite E in H. cbn [option_map fst] in H.
  apply (history_read_back _ _ _ _ _ _ _ _ _ H).
Qed.
Print Assumptions C23_read_back.

(** without writes of single elements, no observation depends on the cache: arrays filled with
    set(p) or resized show the same values for every cache size, replacement strategy and
    contents of uninitialised memory *)
Definition keeps (o : op) : Prop := match o with Update _ _ | UpdateFlat _ _ | Data => False | _ => True end.
Definition clean (c : contents) : Prop := forall b, (b < blocks_in (csize c))%nat -> changed c b = false.

Lemma clean_room rt c b r : clean c -> make_room rt c b r -> r = Some c.
Proof. intros H M. inversion M; subst; [reflexivity|]. rewrite H in * by assumption. discriminate. Qed.
Lemma clean_compress rt c : clean c -> exists c', compress_blocks rt (changed c) c = Some c' /\ ceq c c' /\ clean c'.
Proof.
  intros H. destruct (compress_some rt (changed c) (fun _ => None) c) as (c' & E & E1 & E2 & E3); [intros b Hb X; rewrite H in X by exact Hb; discriminate|].
  exists c'. split; [exact E|]. split; [|intros b Hb; rewrite E3, H by (rewrite <- E1; exact Hb); reflexivity]. split; [auto|]. split.
  - intros cs Hc. destruct (E2 cs Hc) as [X Y]. cbv zeta in X, Y. rewrite H in X, Y by (apply block_of_lt; exact Hc). auto.
  - intros b Hb. rewrite E3, H by exact Hb. reflexivity.
Qed.
Lemma ceq_clean c c' : ceq c c' -> clean c -> clean c'.
Proof. intros (E1 & _ & E3) H b Hb. rewrite <- E1 in Hb. rewrite <- E3 by exact Hb. apply H. exact Hb. Qed.
Lemma ceq_sym c c' : ceq c c' -> ceq c' c.
Proof. intros (E1 & E2 & E3). split; [auto|]. rewrite <- E1. split; intros x Hx; [destruct (E2 x Hx) as [-> ->]; auto|symmetry; apply E3; exact Hx]. Qed.
Lemma ceq_trans a b c : ceq a b -> ceq b c -> ceq a c.
Proof. intros (A1 & A2 & A3) (B1 & B2 & B3). split; [congruence|]. rewrite <- A1 in B2, B3. split; intros x Hx; [destruct (A2 x Hx) as [-> ->]; apply B2; exact Hx|rewrite A3 by exact Hx; apply B3; exact Hx]. Qed.
Lemma flat_once ns i cs ds : flat ns i cs -> flat ns i ds -> cs = ds.
Proof. intros [A1 A2] [B1 B2]. rewrite <- (digits_number ns cs A1), <- (digits_number ns ds B1), A2, B2. reflexivity. Qed.
Lemma stored_once c1 c2 m p m1 m2 : ceq c1 c2 -> stored c1 m p m1 -> stored c2 m p m2 -> m1 = m2.
Proof.
  intros (E1 & E2 & _) (A1 & A2 & A3) (B1 & B2 & B3). rewrite <- E1 in *. apply (nth_ext _ _ 0 0); [congruence|]. intros i _.
  assert (AA : forall m, nth i m 0 = at_addr 0 m (Z.of_nat i)) by (intros; unfold at_addr; rewrite Nat2Z.id; reflexivity). rewrite !AA.
  assert (D : (exists cs, inside cs (csize c1) /\ addr p (contiguous 1 (csize c1)) cs = Z.of_nat i) \/ (forall cs, inside cs (csize c1) -> addr p (contiguous 1 (csize c1)) cs <> Z.of_nat i)).
  { destruct (Z_lt_ge_dec (Z.of_nat i - p) 0) as [L|G]; [right; intros cs Hc; rewrite contiguous_addr by exact Hc; lia|].
    destruct (Forall_dec (fun n => 0 < n)%nat (fun n => lt_dec 0 n) (csize c1)) as [PO|NP].
    - destruct (Z_lt_ge_dec (Z.of_nat i - p) (Z.of_nat (fold_right Nat.mul 1%nat (csize c1)))) as [L|G2].
      + left. exists (digits (csize c1) (Z.to_nat (Z.of_nat i - p))). assert (I : inside (digits (csize c1) (Z.to_nat (Z.of_nat i - p))) (csize c1)) by (apply digits_inside; exact PO).
        split; [exact I|]. rewrite contiguous_addr by exact I. rewrite number_digits by (try exact PO; lia). lia.
      + right. intros cs Hc. rewrite contiguous_addr by exact Hc. pose proof (number_lt _ _ Hc). lia.
    - right. intros cs Hc. exfalso. apply NP. clear - Hc. induction Hc; constructor; [lia|assumption]. }
  destruct D as [(cs & Hc & <-)|N].
  - destruct (E2 cs Hc) as [X _]. rewrite A2, B2 in X by exact Hc. congruence.
  - rewrite A3, B3 by (auto; lia). reflexivity.
Qed.

Lemma clean_step W n rt dec val size d o c1 c2 r1 r2 : ceq c1 c2 -> clean c1 -> keeps o -> valid_op val size d (csize c1) o ->
  allowed W n rt dec c1 o r1 -> allowed W n rt dec c2 o r2 ->
  match r1, r2 with
  | Some (y1, d1), Some (y2, d2) => y1 = y2 /\ ceq d1 d2 /\ clean d1 /\ csize d1 = size_after (csize c1) o
  | None, None => True
  | _, _ => False
  end.
Proof.
  intros EQ CL K V A1 A2. pose proof (ceq_clean _ _ EQ CL) as CL2. pose proof EQ as (Q1 & Q2 & Q3).
  assert (GET : forall cs, inside cs (csize c1) -> forall r1 r2, allowed W n rt dec c1 (Get cs) r1 -> allowed W n rt dec c2 (Get cs) r2 ->
    match r1, r2 with Some (y1, d1), Some (y2, d2) => y1 = y2 /\ ceq d1 d2 /\ clean d1 /\ csize d1 = csize c1 | None, None => True | _, _ => False end).
  { intros cs Hc q1 q2 B1 B2. inversion B1 as [? s1 M1| | | | | | | | | | | |]; subst. inversion B2 as [? s2 M2| | | | | | | | | | | |]; subst.
    apply clean_room in M1; [|exact CL]. apply clean_room in M2; [|exact CL2]. subst. cbn [bind]. destruct (Q2 cs Hc) as [<- _].
    destruct (current c1 cs); [|exact I]. cbn [bind]. auto. }
  assert (COMP : match compress_blocks rt (changed c1) c1, compress_blocks rt (changed c2) c2 with Some d1, Some d2 => ceq d1 d2 /\ clean d1 /\ csize d1 = csize c1 | _, _ => False end).
  { destruct (clean_compress rt c1 CL) as (d1 & -> & X1 & Y1). destruct (clean_compress rt c2 CL2) as (d2 & -> & X2 & _).
    split; [|split; [exact Y1|symmetry; apply X1]]. apply (ceq_trans _ c1); [apply ceq_sym; exact X1|]. apply (ceq_trans _ c2); assumption. }
  destruct o; try (elim K; fail); cbn [valid_op size_after] in *.
  - apply (GET cs V); assumption.
  - inversion A1 as [| |? cs1 ? F1 B1| | | | | | | | | |]; subst. inversion A2 as [| |? cs2 ? F2 B2| | | | | | | | | |]; subst. rewrite <- Q1 in F2.
    assert (cs2 = cs1) by (apply (flat_once _ _ _ _ F2 F1)). subst cs2. apply (GET cs1 (proj1 F1)); assumption.
  - inversion A1; subst. inversion A2; subst. destruct (compress_blocks rt (changed c1) c1), (compress_blocks rt (changed c2) c2); try (elim COMP; fail). cbn [bind]. auto.
  - inversion A1; subst. inversion A2; subst. split; [reflexivity|]. cbn [csize]. split; [|split; [intros b Hb; reflexivity|reflexivity]].
    split; [exact Q1|]. cbn [csize current saved changed]. split; [intros cs Hc; destruct (Q2 cs Hc) as [_ ->]; auto|reflexivity].
  - inversion A1; subst. inversion A2; subst. destruct (compress_blocks rt (changed c1) c1), (compress_blocks rt (changed c2) c2); try (elim COMP; fail). cbn [bind]. auto.
  - inversion A1; subst; inversion A2; subst.
    + split; [f_equal; eapply stored_once; eassumption|]. auto.
    + exfalso. match goal with S : stored c1 _ _ _, X : inside ?cs (csize c2), Y : current c2 ?cs = None |- _ =>
        destruct S as (_ & T & _); rewrite <- Q1 in X; pose proof (T cs X); rewrite ?Q1 in *; destruct (Q2 cs X); congruence end.
    + exfalso. match goal with S : stored c2 _ _ _, X : inside ?cs (csize c1), Y : current c1 ?cs = None |- _ =>
        destruct S as (_ & T & _); rewrite Q1 in X; pose proof (T cs X); rewrite ?Q1 in *; destruct (Q2 cs X); congruence end.
    + exact I.
  - inversion A1; subst. inversion A2; subst. rewrite <- Q1. destruct (compress_blocks rt (fun _ => true) (from_memory (csize c1) m p)) as [x|] eqn:E; cbn [bind]; [|exact I].
    unfold CacheSpec.compress_blocks in E. destruct (forallb _ _); [|discriminate]. injection E as <-. split; [reflexivity|]. split; [apply ceq_refl|]. split; [intros b _; reflexivity|reflexivity].
  - inversion A1; subst. inversion A2; subst. split; [reflexivity|]. split; [apply ceq_refl|]. split; [intros b _; reflexivity|reflexivity].
Qed.
Lemma clean_history W n rt dec val size d : forall os c1 c2 r1 r2, ceq c1 c2 -> clean c1 -> Forall keeps os -> valid_ops val size d (csize c1) os ->
  history W n rt dec c1 os r1 -> history W n rt dec c2 os r2 -> r1 = r2.
Proof.
  induction os as [|o os IH]; intros c1 c2 r1 r2 EQ CL K V H1 H2.
  - inversion H1; inversion H2; subst; reflexivity.
  - inversion K as [|? ? K1 K2]; subst. destruct V as [V1 V2].
    inversion H1 as [|? ? ? A1|? ? ? y1 d1 s1 A1 G1]; subst; inversion H2 as [|? ? ? A2|? ? ? y2 d2 s2 A2 G2]; subst;
      pose proof (clean_step _ _ _ _ _ _ _ _ _ _ _ _ EQ CL K1 V1 A1 A2) as S; cbv beta iota in S; try (elim S; fail); [reflexivity|].
    destruct S as (-> & S1 & S2 & S3). rewrite <- S3 in V2. rewrite (IH d1 d2 s1 s2 S1 S2 K2 V2 G1 G2). reflexivity.
Qed.
Theorem C23_cache_invisible : forall W P d k bits ns os two_way fast_hash junk csize two_way' fast_hash' junk' csize',
  word_size W -> int_width P -> (1 <= d <= 3)%nat -> array_rate W P d k bits -> array_size d ns ->
  length junk = (4 ^ d)%nat -> line_count (scalar_bytes P) csize ns <= 2 ^ 31 ->
  length junk' = (4 ^ d)%nat -> line_count (scalar_bytes P) csize' ns <= 2 ^ 31 ->
  valid_ops (finite_value P) (scalar_bytes P) d ns os ->
  Forall (fun o => match o with Update _ _ | UpdateFlat _ _ | Data => False | _ => True end) os ->
  let n := Z.to_nat bits in
  let observed two_way fast_hash junk csize :=
    option_map fst (run two_way fast_hash W n (array_enc W P d bits) (array_dec W P d bits) junk (scalar_bytes P)
      (new_array W n junk (scalar_bytes P) csize ns) os) in
  observed two_way fast_hash junk csize = observed two_way' fast_hash' junk' csize'.
Proof.
  intros W P d k bits ns os tw fh junk csize tw' fh' junk' csize' HW HP HD HR HA HJ HC HJ' HC' HV HK n observed.
  apply (clean_history W n (array_round W P d bits) (array_dec W P d bits) (finite_value P) (scalar_bytes P) d os (zeros ns) (zeros ns)).
  - apply ceq_refl.
  - intros b _. reflexivity.
  - exact HK.
  - exact HV.
  - apply (C23_history W P d k bits tw fh junk csize ns os HW HP HD HR HJ HA HC HV).
  - apply (C23_history W P d k bits tw' fh' junk' csize' ns os HW HP HD HR HJ' HA HC' HV).
Qed.
Print Assumptions C23_cache_invisible.

(** a 5 x 6 array of doubles at 32 bits per value with a cache of one line: the second write
    evicts the first block, and both values survive the flush *)
Example C23_nonvacuous :
  let one := 2 ^ 1074 in
  let ops := [Update [1; 2]%nat (fun _ => 3 * one); Update [4; 5]%nat (fun _ => one); Update [4; 5]%nat Z.opp; Flush; Get [1; 2]%nat; GetFlat 29%nat; Get [0; 0]%nat] in
  array_rate 64 64 2 (32 * 2 ^ 1074) 512 /\ array_size 2 [5; 6]%nat /\ line_count (scalar_bytes 64) 1 [5; 6]%nat <= 2 ^ 31 /\
  valid_ops (finite_value 64) (scalar_bytes 64) 2 [5; 6]%nat ops /\
  option_map fst (run true false 64 512 (array_enc 64 64 2 512) (array_dec 64 64 2 512) (repeat 7 16) (scalar_bytes 64)
    (new_array 64 512 (repeat 7 16) (scalar_bytes 64) 1 [5; 6]%nat) ops) =
  Some [Nothing; Nothing; Nothing; Nothing; Value (3 * one); Value (- one); Value 0].
Proof.
  intros one ops. split; [|split; [|split; [|split]]].
  - split; [vm_compute; discriminate|]. split; [vm_compute; reflexivity|]. split; [vm_compute; reflexivity|]. eexists. split; [vm_compute; reflexivity|reflexivity].
  - split; [reflexivity|]. split; [repeat constructor|]. vm_compute. discriminate.
  - vm_compute. discriminate.
  - assert (F : forall v, Z.abs v <? 2 ^ (max_exp 64 + 1 + unit_exp 64) = true -> finite_value 64 v) by (intros v E; apply Z.ltb_lt in E; exact E).
    assert (I : forall i j, (i < 5)%nat -> (j < 6)%nat -> inside [i; j] [5; 6]%nat) by (intros; constructor; [assumption|]; constructor; [assumption|constructor]).
    cbn [valid_ops ops valid_op size_after].
    split; [split; [apply I; lia|intros; apply F; vm_compute; reflexivity]|].
    split; [split; [apply I; lia|intros; apply F; vm_compute; reflexivity]|].
    split; [split; [apply I; lia|intros x Hx; unfold finite_value, below in *; rewrite Z.abs_opp; exact Hx]|].
    split; [exact Logic.I|]. split; [apply I; lia|]. split; [cbn; lia|]. split; [apply I; lia|exact Logic.I].
  - vm_compute. reflexivity.
Qed.

(** the limit on the number of blocks is real: block number 2^31 - 1 gets a tag whose index is
    that of an unused line, so the line written for it is never found again *)
Theorem C23_block_limit_refuted : forall two_way fast_hash,
  let c := cache_resize [0; 0; 0; 0] 4 in
  let b := 2 ^ 31 - 1 in
  let '(_, i, c') := access two_way fast_hash c (b + 1) true in
  tag_index (tag_at c' i) = 0 /\ lookup two_way fast_hash c' (b + 1) = None.
Proof. intros two_way fast_hash. destruct two_way, fast_hash; vm_compute; auto. Qed.
Print Assumptions C23_block_limit_refuted.

(** the cache has a power of two of lines, at least as many as asked for and less than twice
    as many; the lines asked for hold at least the bytes asked for *)
Theorem C23_cache_lines : forall junk n, 1 <= n <= 2 ^ 31 ->
  let c := cache_resize junk n in
  exists k, 0 <= k /\ Z.of_nat (length (tags c)) = 2 ^ k /\ length (lines c) = length (tags c) /\ n <= 2 ^ k < 2 * n /\
    Forall (fun t => t = 0) (tags c) /\ Forall (fun l => l = junk) (lines c) /\ mask c = 2 ^ k - 1.
Proof.
  intros junk n Hn c. destruct (cache_mask_spec n Hn) as (k & K1 & K2 & K3). exists k. split; [lia|].
  pose proof (Z.pow_pos_nonneg 2 k ltac:(lia) ltac:(lia)) as P2.
  unfold c, cache_resize, cache_clear. cbn [tags lines mask]. rewrite map_length, !repeat_length. split; [rewrite Z2Nat.id by lia; exact K2|]. split; [reflexivity|]. split; [exact K3|].
  split; [apply Forall_forall; intros x X; apply in_map_iff in X as (y & <- & _); reflexivity|]. split; [|lia].
  apply Forall_forall. intros x X. apply repeat_spec in X. exact X.
Qed.
Theorem C23_cache_bytes : forall size csize ns, 0 < size -> 1 <= csize < 2 ^ 31 -> (1 <= length ns <= 3)%nat -> size <= 8 ->
  let lines := line_count size csize ns in
  csize <= lines * (size * 4 ^ Z.of_nat (length ns)) < csize + size * 4 ^ Z.of_nat (length ns) /\ 1 <= lines <= csize.
Proof.
  intros size csize ns Hs Hc HL H8 lines. unfold lines, line_count. destruct (Z.eqb_spec csize 0); [lia|].
  assert (B : 1 <= size * 4 ^ Z.of_nat (length ns) <= 512).
  { assert (4 ^ Z.of_nat (length ns) <= 64) by (change 64 with (4 ^ 3); apply Z.pow_le_mono_r; lia). pose proof (Z.pow_pos_nonneg 4 (Z.of_nat (length ns)) ltac:(lia) ltac:(lia)). nia. }
  set (bytes := size * 4 ^ Z.of_nat (length ns)) in *. clearbody bytes.
  pose proof (Z.div_mod (csize + bytes - 1) bytes ltac:(lia)) as DM. pose proof (Z.mod_pos_bound (csize + bytes - 1) bytes ltac:(lia)) as MB.
  set (q := (csize + bytes - 1) / bytes) in *. assert (1 <= q <= csize) by nia. unfold uint. rewrite Z.mod_small by (change (2 ^ 31) with 2147483648 in Hc; change (2 ^ 32) with 4294967296; lia).
  rewrite Z.max_l by lia. split; [nia|lia].
Qed.
Print Assumptions C23_cache_lines.
Print Assumptions C23_cache_bytes.
Example C23_cache_nonvacuous : line_count 8 1000 [5; 6]%nat = 8 /\ cache_mask 9 = 15.
Proof. split; reflexivity. Qed.

(* ------------------------------------------------------------------------------------ *)
(** * C24: fixed-rate random access *)

(** encoding block e of an array at its offset changes only the words of that block, fills
    them completely, touches neither the cache nor the array's size, and decoding block e
    then returns the values the block decodes to when coded alone; so every other block keeps
    all its bits.  The stream may be in any state left by earlier reads and writes. *)
Theorem C24_isolation : forall W P d k bits a e n v,
  word_size W -> int_width P -> (1 <= d <= 3)%nat -> array_rate W P d k bits ->
  buffer_ok W (mem (astream a)) -> fault (astream a) = false ->
  (W * length (mem (astream a)) = n * Z.to_nat bits)%nat -> (e < n)%nat -> codable_block P d v ->
  let blk := Z.to_nat bits in
  let first := (e * (blk / W))%nat in
  (blk = W * (blk / W))%nat /\
  exists a', encode W blk (array_enc W P d bits) a e v = Some a' /\
    sizes a' = sizes a /\ shape a' = shape a /\ acache a' = acache a /\
    buffer_ok W (mem (astream a')) /\ fault (astream a') = false /\
    length (mem (astream a')) = length (mem (astream a)) /\
    (forall i, (i < first \/ first + blk / W <= i)%nat -> nth i (mem (astream a')) 0 = nth i (mem (astream a)) 0) /\
    exists q, array_round W P d bits v = Some q /\
      match q with
      | Some q => exists a2, decode W blk (array_dec W P d bits) a' e = Some (q, a2) /\ mem (astream a2) = mem (astream a') /\ fault (astream a2) = false
      | None => decode W blk (array_dec W P d bits) a' e = None
      end.
Proof.
  intros W P d k bits a e n v HW HP HD HR Hm Hf HL He Hv blk first.
  destruct (rate_facts W P d k bits HW HP HD HR) as [HB HBW]. pose proof (word_size_range W HW) as HWr.
  assert (HDd : dims d) by (unfold dims; lia). assert (HB' : Z.of_nat (exp_bits P) + 1 <= bits < 2 ^ 31) by (destruct (spec_consts P HP) as (_ & _ & -> & _); exact HB).
  assert (HM : (blk mod W = 0)%nat) by (eapply inst_mod; eassumption).
  assert (EB : (blk = W * (blk / W))%nat) by (pose proof (Nat.div_mod blk W ltac:(lia)); lia). split; [exact EB|].
  pose proof (spec_codable P d v 64 (-1074) HP Hv) as OK.
  assert (LC : length (float_code P d bits bits 64 (-1074) v) = blk) by (eapply inst_code_len; eassumption).
  assert (Hoff : (e * blk + blk <= W * length (mem (astream a)))%nat) by (rewrite HL; fold blk; nia).
  destruct (wat_wseek W HWr (astream a) (e * blk) Hm Hf ltac:(lia)) as [Hw Hmem].
  unfold encode, array_enc. rewrite (float_enc_put W P d bits bits 64 (-1074) HW HP HDd HB' ltac:(lia) ltac:(lia) _ _ v OK Hw).
  2:{ rewrite LC, firstn_length_le by (rewrite membits_length by exact HWr; lia). unfold cap. rewrite Hmem. lia. }
  cbn [bind]. eexists. split; [reflexivity|]. split; [reflexivity|]. split; [reflexivity|]. split; [reflexivity|].
  destruct (write_block W HW blk HM (astream a) e n (float_code P d bits bits 64 (-1074) v) Hm Hf HL He LC) as (A1 & A2 & A3 & A4 & A5 & A6).
  set (s' := snd (stream_flush W (put W (stream_wseek W (astream a) (e * blk)) (float_code P d bits bits 64 (-1074) v)))) in *.
  change (astream (with_stream a s')) with s'. split; [exact A2|]. split; [exact A1|]. split; [exact A3|]. split.
  { intros i Hi. apply A6. unfold first in Hi. set (w := (blk / W)%nat) in *. rewrite EB. destruct Hi as [Hi|Hi]; [left|right]; nia. }
  exists (float_recon P d bits 64 (-1074) v). split; [eapply inst_round; eassumption|].
  pose proof (read_block W HW blk HM s' e n A2 A1 ltac:(rewrite A3; exact HL) He) as RB. rewrite A4 in RB.
  destruct (float_dec_read W P d bits bits 64 (-1074) HW HP HDd HB' ltac:(lia) ltac:(lia) _ _ _ v OK RB) as (s2 & D & R2).
  unfold decode. change (astream (with_stream a s')) with s'. unfold array_dec. rewrite D. destruct (float_recon P d bits 64 (-1074) v); [|reflexivity].
  cbn [bind]. eexists. split; [reflexivity|]. destruct R2 as (_ & F & M & _). split; assumption.
Qed.
Print Assumptions C24_isolation.

Example C24_nonvacuous :
  let a := new_array 64 512 (repeat 7 16) 8 1 [5; 6]%nat in
  let v := map (fun i => Z.of_nat i * 2 ^ 1074) (seq 0 16) in
  array_rate 64 64 2 (32 * 2 ^ 1074) 512 /\ fault (astream a) = false /\ (64 * length (mem (astream a)) = 4 * 512)%nat /\ codable_block 64 2 v.
Proof.
  intros a v. split; [|split; [reflexivity|split; [reflexivity|]]].
  - split; [vm_compute; discriminate|]. split; [vm_compute; reflexivity|]. split; [vm_compute; reflexivity|]. eexists. split; [vm_compute; reflexivity|reflexivity].
  - split; [reflexivity|]. assert (FA : forall e, forallb (fun k => Z.abs k <? 2 ^ (e + unit_exp 64)) v = true -> Forall (below 64 e) v).
    { intros e E. apply Forall_forall. intros x X. rewrite forallb_forall in E. specialize (E x X). apply Z.ltb_lt in E. exact E. }
    split; [apply FA; vm_compute; reflexivity|]. right. exists 4. split; [|vm_compute; discriminate]. split; [apply FA; vm_compute; reflexivity|].
    apply Exists_exists. exists (15 * 2 ^ 1074). split; [|vm_compute; discriminate]. apply in_map_iff. exists 15%nat. split; [reflexivity|apply in_seq; lia].
Qed.

(** without the alignment that random writes ask for, encoding one block destroys its
    neighbour: with 20 bits per block, encoding block 0 again clears block 1 *)
Theorem C24_unaligned_refuted : exists a a' a'',
  let enc := float_enc 64 32 1 20 20 64 (-1074) in
  let dec := float_dec 64 32 1 20 20 64 (-1074) in
  let v := repeat (2 ^ 149) 4 in
  encode 64 20 enc a 1 v = Some a' /\ option_map fst (decode 64 20 dec a' 1) = Some v /\
  encode 64 20 enc a' 0 v = Some a'' /\ option_map fst (decode 64 20 dec a'' 1) = Some (repeat 0 4).
Proof.
  exists (mk_array [8%nat] None (cache_resize [] 1) (stream_open [0; 0])).
  do 2 eexists. cbv zeta. split; [vm_compute; reflexivity|]. split; [vm_compute; reflexivity|]. split; [vm_compute; reflexivity|]. vm_compute. reflexivity.
Qed.
Print Assumptions C24_unaligned_refuted.
