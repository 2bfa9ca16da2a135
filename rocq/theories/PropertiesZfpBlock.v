(** Properties C06, C07, C08, C13, C14: negabinary, coefficient order, decorrelating
    transform and integer blocks.  Vocabulary: BlockSpec.v, StreamSpec.v, EmbedSpec.v. *)
From Coq Require Import ZArith Lia List Bool Arith Permutation.
From Verif Require Import ListAux Bits Bitstream BitstreamProofs BitstreamProofs2 StreamSpec StreamRuns.
From Verif Require Import EmbedSpec ZfpCodec ZfpCodecProofs ZfpCodecProofs2 ZfpCodecProofs3 EmbedProofs EmbedRuns DecodeLocal.
From Verif Require Import ZfpXform BlockSpec LiftProofs XformProofs XformProofs2 NegaProofs BlockProofs PropertiesZfpEmbed.
Import ListNotations.
Local Open Scope Z_scope.

Definition int_range (P : nat) (x : Z) : Prop := - 2 ^ (Z.of_nat P - 1) <= x < 2 ^ (Z.of_nat P - 1).
Definition uint_range (P : nat) (u : Z) : Prop := 0 <= u < 2 ^ Z.of_nat P.
Definition int_width (P : nat) : Prop := P = 32%nat \/ P = 64%nat.

(** ** C06 *)
Theorem C06_bijection : forall P, int_width P ->
  (forall x, int_range P x -> uint_range P (int2uint P x) /\ uint2int P (int2uint P x) = x) /\
  (forall u, uint_range P u -> int_range P (uint2int P u) /\ int2uint P (uint2int P u) = u).
Proof.
  intros P HP. split; intros.
  - split; [apply int2uint_range; exact HP|apply uint2int_int2uint; assumption].
  - split; [apply uint2int_range; exact HP|apply int2uint_uint2int; assumption].
Qed.
Print Assumptions C06_bijection.

(** the word is the base -2 numeral of the integer: exactly for values with two guard
    bits, modulo 2^P for all words *)
Theorem C06_negabinary : forall P, int_width P ->
  (forall v, Z.abs v <= 2 ^ (Z.of_nat P - 2) -> negaval P (int2uint P v) = v) /\
  (forall u, uint_range P u -> (uint2int P u - negaval P u) mod 2 ^ Z.of_nat P = 0).
Proof.
  intros P HP. split; [intros; apply negaval_int2uint; assumption|].
  intros u U. rewrite uint2int_negaval by assumption.
  assert (0 < 2 ^ Z.of_nat P) by (apply Z.pow_pos_nonneg; lia).
  rewrite <- Zminus_mod_idemp_l.
  rewrite to_int_cong by (auto; apply Z.mod_pos_bound; assumption).
  rewrite Zminus_mod_idemp_l, Z.sub_diag. apply Z.mod_0_l. lia.
Qed.
Print Assumptions C06_negabinary.

(** keeping the top prec digits leaves an error below the weight 2^(P-prec) *)
Theorem C06_truncation : forall P v prec, int_width P -> Z.abs v <= 2 ^ (Z.of_nat P - 2) ->
  Z.abs (v - uint2int P (keep_top P prec (int2uint P v))) < 2 ^ Z.of_nat (P - prec).
Proof. intros. apply keep_top_error; assumption. Qed.
Print Assumptions C06_truncation.

Example C06_nonvacuous :
  int_range 32 (-2000000000) /\ int2uint 32 (-2000000000) = 2581576704 /\
  int2uint 32 (-3) = 13 /\ negaval 32 13 = -3 /\ uint2int 32 (keep_top 32 29 13) = -8.
Proof. vm_compute. repeat split; discriminate. Qed.

(** ** C07 *)
Definition dims (d : nat) : Prop := (1 <= d <= 4)%nat.

Theorem C07_permutation : forall d, dims d -> Permutation (perm_of d) (seq 0 (4 ^ d)).
Proof.
  intros d D. destruct (perm_of_ok d D) as (L & N & F).
  apply NoDup_Permutation_bis; auto; [rewrite seq_length, L; apply Nat.le_refl|].
  intros x X. apply in_seq. rewrite Forall_forall in F. specialize (F x X). unfold block_size in F. lia.
Qed.
Print Assumptions C07_permutation.

(** adjacent check implies the order of all pairs *)
Definition key_le (d a b : nat) : bool :=
  ((total_degree d a <? total_degree d b) ||
   (total_degree d a =? total_degree d b) && (total_squares d a <=? total_squares d b))%nat.
Fixpoint sortedb (d : nat) (l : list nat) : bool :=
  match l with
  | [] => true
  | a :: r => match r with [] => true | b :: _ => key_le d a b end && sortedb d r
  end.
Lemma key_le_spec d a b : key_le d a b = true <->
  (total_degree d a < total_degree d b)%nat \/
  (total_degree d a = total_degree d b /\ total_squares d a <= total_squares d b)%nat.
Proof.
  unfold key_le. rewrite orb_true_iff, andb_true_iff, Nat.ltb_lt, Nat.eqb_eq, Nat.leb_le. reflexivity.
Qed.
Lemma sortedb_nth d l : sortedb d l = true -> forall i j, (i < j < length l)%nat ->
  key_le d (nth i l 0%nat) (nth j l 0%nat) = true.
Proof.
  induction l as [|a l IH]; intros S i j H; [cbn in H; lia|].
  cbn [sortedb] in S. apply andb_prop in S as [S1 S2]. destruct j as [|j]; [lia|]. cbn [length] in H.
  destruct i as [|i]; [|cbn [nth]; apply IH; [assumption|lia]].
  destruct l as [|b l]; [cbn in H; lia|]. cbn [nth].
  destruct j as [|j]; [exact S1|].
  specialize (IH S2 0%nat (S j) ltac:(cbn [length] in *; lia)). cbn [nth] in IH.
  rewrite key_le_spec in S1, IH |- *. lia.
Qed.

(** coefficients are ordered by total degree, then by the sum of the squared degrees *)
Theorem C07_degree_order : forall d, dims d -> forall i j, (i < j < 4 ^ d)%nat ->
  let a := nth i (perm_of d) 0%nat in let b := nth j (perm_of d) 0%nat in
  (total_degree d a < total_degree d b)%nat \/
  (total_degree d a = total_degree d b /\ total_squares d a <= total_squares d b)%nat.
Proof.
  intros d D i j H a b. apply key_le_spec. subst a b. apply sortedb_nth.
  - assert (d = 1 \/ d = 2 \/ d = 3 \/ d = 4)%nat as [->|[->|[->| ->]]] by (unfold dims in D; lia); vm_compute; reflexivity.
  - destruct (perm_of_ok d D) as (L & _). unfold block_size in L. lia.
Qed.
Print Assumptions C07_degree_order.

(** encoder order: coefficient k of the coded block is the negabinary form of block
    position perm[k]; the decoder inverts it exactly *)
Theorem C07_order_round_trip : forall P d b, int_width P -> dims d -> length b = (4 ^ d)%nat -> Forall (int_range P) b ->
  exists u, fwd_order P b (perm_of d) = Some u /\
    u = map (fun p => int2uint P (nth p b 0)) (perm_of d) /\
    inv_order P u (perm_of d) (repeat 0 (4 ^ d)) = Some b.
Proof.
  intros P d b HP D L F. pose proof (perm_of_ok d D) as OK. pose proof OK as (L1 & L2 & L3).
  eexists. split; [apply (fwd_order_spec P b (perm_of d) (block_size d)); assumption|]. split; [reflexivity|].
  set (u := map _ (perm_of d)).
  assert (LU : length u = block_size d) by (unfold u; rewrite map_length; assumption).
  destruct (inv_order_ok P (block_size d) (perm_of d) u OK LU) as (r & R1 & R2 & R3).
  unfold block_size in *. rewrite R1. f_equal. apply nth_ext0; [lia|]. intros i I.
  destruct (perm_surj _ _ i OK) as (k & K & E); [lia|]. rewrite <- E. rewrite R3 by lia.
  unfold u. set (g := fun p => int2uint P (nth p b 0)).
  rewrite (nth_indep _ 0 (g 0%nat)) by (rewrite map_length; lia). rewrite map_nth. unfold g. rewrite E.
  apply uint2int_int2uint; [exact HP|]. rewrite Forall_forall in F. apply F, nth_In. lia.
Qed.
Print Assumptions C07_order_round_trip.

Example C07_nonvacuous :
  perm_of 2 = [0; 1; 4; 5; 2; 8; 6; 9; 3; 12; 10; 7; 13; 11; 14; 15]%nat /\
  total_degree 2 9 = 3%nat /\ total_squares 2 9 = 5%nat /\ length (perm_of 4) = 256%nat.
Proof. vm_compute. auto. Qed.

(** ** C08 *)
(** the transform is the 4-point lift applied along every axis in turn, the inverse
    transform undoes the axes in the opposite order *)
Theorem C08_separable : forall P d b c, dims d -> length b = (4 ^ d)%nat ->
  (fwd_xform P d b = Some c <-> along_all (fwd_lift P) d (seq 0 d) b c) /\
  (inv_xform P d b = Some c <-> along_all (inv_lift P) d (rev (seq 0 d)) b c).
Proof. intros. split; [apply fwd_along|apply inv_along]; assumption. Qed.
Print Assumptions C08_separable.

(** the 4-point lifts are the documented matrices up to rounding *)
Theorem C08_matrices : forall P x y z w x' y' z' w', (3 <= P)%nat ->
  (fwd_lift P (x, y, z, w) = Some (x', y', z', w') ->
    Z.abs (16 * x' - (4 * x + 4 * y + 4 * z + 4 * w)) <= 16 /\
    Z.abs (16 * y' - (5 * x + y - z - 5 * w)) <= 23 /\
    Z.abs (16 * z' - (- 4 * x + 4 * y + 4 * z - 4 * w)) <= 12 /\
    Z.abs (16 * w' - (- 2 * x + 6 * y - 6 * z + 2 * w)) <= 12) /\
  (inv_lift P (x, y, z, w) = Some (x', y', z', w') ->
    Z.abs (4 * x' - (4 * x + 6 * y - 4 * z - w)) <= 5 /\
    Z.abs (4 * y' - (4 * x + 2 * y + 4 * z + 5 * w)) <= 2 /\
    Z.abs (4 * z' - (4 * x - 2 * y + 4 * z - 5 * w)) <= 2 /\
    Z.abs (4 * w' - (4 * x - 6 * y - 4 * z + w)) <= 5).
Proof.
  intros. split; intros.
  - apply (fwd_lift_matrix P); assumption.
  - apply (inv_lift_matrix P); assumption.
Qed.
Print Assumptions C08_matrices.

(** two guard bits: no overflow, and the coefficients keep the guard bits *)
Theorem C08_forward_no_overflow : forall P d b B, (4 <= P)%nat -> dims d -> length b = (4 ^ d)%nat ->
  2 <= B <= guard_max P -> bounded B b ->
  exists c, fwd_xform P d b = Some c /\ length c = (4 ^ d)%nat /\ bounded B c.
Proof.
  intros P d b B HP D L HB F. unfold guard_max in HB.
  destruct (fwd_xform_ok P d ltac:(lia) D B b L) as (c & C1 & C2 & C3); auto. exists c. auto.
Qed.
Print Assumptions C08_forward_no_overflow.

(** the inverse returns every value within 2, 10, 40, 153 for d = 1, 2, 3, 4; for d > 1
    the values must stay a few units below the guard-bit limit *)
Theorem C08_near_inverse : forall P d b c, (8 <= P)%nat -> dims d -> length b = (4 ^ d)%nat ->
  (83 <= guard_max P) -> bounded (guard_max P - headroom d) b -> fwd_xform P d b = Some c ->
  exists b', inv_xform P d c = Some b' /\ close (roundoff d) b b'.
Proof.
  intros P d b c HP D L G F X. unfold guard_max in *.
  assert (HH : 0 <= headroom d <= 81) by (unfold headroom; destruct d as [|[|[|[|]]]]; lia).
  destruct (inv_xform_exact P d ltac:(lia) D (2 ^ (Z.of_nat P - 2) - 1 - headroom d) b c L) as (b' & B1 & B2); auto.
  - lia.
  - assert (d = 1 \/ d = 2 \/ d = 3 \/ d = 4)%nat as [->|[->|[->| ->]]] by (unfold dims in D; lia);
      [left; reflexivity|right|right|right].
    + change (growth (2 - 2) 2) with 2. cbn [headroom]. lia.
    + change (growth (3 - 2) 2) with 10. cbn [headroom]. lia.
    + change (growth (4 - 2) 2) with 40. cbn [headroom]. lia.
  - exists b'. split; [assumption|].
    assert (d = 1 \/ d = 2 \/ d = 3 \/ d = 4)%nat as [->|[->|[->| ->]]] by (unfold dims in D; lia); exact B2.
Qed.
Print Assumptions C08_near_inverse.

(** perturbed coefficients: the error grows by at most 15/4 per axis *)
Theorem C08_stability : forall P d b c c' B E, (4 <= P)%nat -> dims d -> length b = (4 ^ d)%nat ->
  2 <= B -> 0 <= E -> B + 2 * growth (d - 1) E + 1 <= guard_max P -> bounded B b ->
  fwd_xform P d b = Some c -> close E c c' ->
  exists b', inv_xform P d c' = Some b' /\ close (growth d E) b b'.
Proof.
  intros P d b c c' B E HP D L B2 HE G F X CL. unfold guard_max in G.
  apply (inv_xform_close P d ltac:(lia) D B E b c c'); auto. lia.
Qed.
Print Assumptions C08_stability.

(** The headroom is necessary: with only the two guard bits the inverse transform of the
    exact coefficients overflows the 32-bit integer type for this 4x4 block. *)
Definition overflow_block : list Z :=
  [-1073741820; 1073741818; 1073741821; 1073741818; 1073741823; -1073741818; 1073741816; 1073741819;
   1073741813; -1073741815; 1073741823; -1073741818; 1073741823; -1073741823; -1073741823; -1073741822].
Theorem C08_two_guard_bits_refuted :
  exists b c, length b = 16%nat /\ bounded (guard_max 32) b /\ fwd_xform 32 2 b = Some c /\ inv_xform 32 2 c = None.
Proof.
  exists overflow_block. eexists. split; [reflexivity|]. split; [repeat constructor; vm_compute; discriminate|].
  split; [vm_compute; reflexivity|vm_compute; reflexivity].
Qed.
Print Assumptions C08_two_guard_bits_refuted.

Example C08_nonvacuous :
  let b := [1073741800; -1073741800; 5; 123456789; 0; 1; 2; 3; 1000; 2000; -3000; 4000; 7; 7; 7; 7] in
  bounded (guard_max 32 - headroom 2) b /\
  (exists c b', fwd_xform 32 2 b = Some c /\ inv_xform 32 2 c = Some b' /\ b' <> b /\ nth 0 c 0 = 7716301).
Proof.
  split; [repeat constructor; vm_compute; discriminate|]. do 2 eexists. split; [vm_compute; reflexivity|].
  split; [vm_compute; reflexivity|]. split; [discriminate|reflexivity].
Qed.

(** ** C13 *)
(** encoding and decoding a list of blocks one after the other with the same parameters *)
Fixpoint encode_all (W P d : nat) (s : stream) (minbits maxbits maxprec : Z) (bs : list (list Z)) : option (list Z * stream) :=
  match bs with
  | [] => Some ([], s)
  | b :: r =>
      match encode_block W P d s minbits maxbits maxprec b with
      | Some (n, s) => match encode_all W P d s minbits maxbits maxprec r with
                       | Some (ns, s) => Some (n :: ns, s) | None => None end
      | None => None
      end
  end.
Fixpoint decode_all (W P d : nat) (s : stream) (minbits maxbits maxprec : Z) (k : nat)
  : list Z * stream * list (option (list Z)) :=
  match k with
  | O => ([], s, [])
  | S k =>
      let '(n, s, b) := decode_block W P d s minbits maxbits maxprec in
      let '(ns, s, bs) := decode_all W P d s minbits maxbits maxprec k in (n :: ns, s, b :: bs)
  end.

(** a block coded alone at the start of a buffer of zeros and decoded again *)
Definition alone (W P d words : nat) (minbits maxbits maxprec : Z) (b : list Z) : option (list Z) :=
  match encode_block W P d (stream_open (repeat 0 words)) minbits maxbits maxprec b with
  | Some (_, s) =>
      snd (decode_block W P d (stream_rewind (snd (stream_flush W s))) minbits maxbits maxprec)
  | None => None
  end.

Definition sum (l : list Z) : Z := fold_right Z.add 0 l.

Section C13.
Variables (W P d : nat) (minbits maxbits maxprec : Z).
Hypothesis HW0 : word_size W.
Hypothesis HP : int_width P.
Hypothesis HD : dims d.
Hypothesis HM : 0 <= maxbits < 2 ^ 31.
Hypothesis HM2 : 0 <= maxprec < 2 ^ 31.

Let coeffs (b : list Z) : list Z :=
  match fwd_xform P d b with Some c => map (fun p => int2uint P (nth p c 0)) (perm_of d) | None => [] end.
Let bits_of (b : list Z) := block_bits P minbits maxbits maxprec (coeffs b).

Lemma coeffs_spec b : length b = (4 ^ d)%nat -> bounded (guard_max P) b ->
  exists c, fwd_xform P d b = Some c /\ fwd_order P c (perm_of d) = Some (coeffs b) /\
    length (coeffs b) = block_size d /\ coeffs_ok P (coeffs b) /\ bounded (guard_max P) c /\ length c = (4 ^ d)%nat.
Proof.
  intros L F. pose proof (perm_of_ok d HD) as (L1 & L2 & L3).
  destruct (C08_forward_no_overflow P d b (guard_max P)) as (c & C1 & C2 & C3); auto.
  { destruct HP; lia. }
  { unfold guard_max. destruct HP as [-> | ->]; vm_compute; split; discriminate. }
  exists c. unfold coeffs. rewrite C1. conjs; auto.
  - apply (fwd_order_spec P c (perm_of d) (block_size d)); auto.
  - rewrite map_length. exact L1.
  - apply Forall_forall. intros x X. apply in_map_iff in X as (p & <- & _). apply int2uint_range. exact HP.
Qed.

Lemma bits_of_length b : length b = (4 ^ d)%nat -> bounded (guard_max P) b ->
  Z.of_nat (length (bits_of b)) = Z.max (Z.max 0 minbits) (Z.of_nat (length (code P (Z.to_nat maxbits) (Z.to_nat maxprec) (coeffs b)))).
Proof. intros. unfold bits_of, block_bits. rewrite padded_length. lia. Qed.

Lemma code_length u : length u = block_size d ->
  (length (code P (Z.to_nat maxbits) (Z.to_nat maxprec) u) <= Z.to_nat maxbits)%nat /\
  (length (code P (Z.to_nat maxbits) (Z.to_nat maxprec) u) <= full_bits (Nat.min P (Z.to_nat maxprec)) (4 ^ d))%nat.
Proof.
  intros L. assert (1 <= block_size d)%nat by (apply Nat.neq_0_lt_0, Nat.pow_nonzero; lia).
  pose proof (ecode_full P (Z.to_nat maxprec) u ltac:(intros ->; cbn in L; lia)) as F.
  rewrite L in F. unfold block_size in *. unfold code. rewrite firstn_length. lia.
Qed.

Definition blocks_ok (bs : list (list Z)) : Prop :=
  Forall (fun b => length b = (4 ^ d)%nat /\ bounded (guard_max P) b) bs.

Lemma encode_all_put bs : blocks_ok bs -> forall s L, wat W s L ->
  (length L + length (concat (map bits_of bs)) <= cap W s)%nat ->
  encode_all W P d s minbits maxbits maxprec bs =
    Some (map (fun b => Z.of_nat (length (bits_of b))) bs, put W s (concat (map bits_of bs))) /\
  wat W (put W s (concat (map bits_of bs))) (L ++ concat (map bits_of bs)).
Proof.
  pose proof (word_size_range W HW0) as HW.
  induction 1 as [|b bs [Lb Fb] _ IH]; intros s L Hw Hc.
  - cbn [encode_all map concat]. rewrite put_nil, app_nil_r. auto.
  - cbn [encode_all map concat] in *. rewrite app_length in Hc.
    destruct (coeffs_spec b Lb Fb) as (c & X1 & X2 & X3 & X4 & _).
    rewrite (encode_block_put W HW P d minbits maxbits maxprec HD HM HM2 s L b c (coeffs b)); auto;
      [|fold (bits_of b); lia].
    fold (bits_of b).
    destruct (put_wrote W HW s L (bits_of b) Hw ltac:(lia)) as (_ & C & Hw').
    destruct (IH _ _ Hw') as [IH1 IH2]; [rewrite app_length, C; lia|].
    rewrite IH1, put_app. split; [reflexivity|]. rewrite app_assoc. exact IH2.
Qed.

Lemma decode_all_readable bs : blocks_ok bs -> forall m pos s, readable W m pos (concat (map bits_of bs)) s ->
  exists s', decode_all W P d s minbits maxbits maxprec (length bs) =
    (map (fun b => Z.of_nat (length (bits_of b))) bs, s', map (fun b => recon P d maxbits maxprec (coeffs b)) bs) /\
    rat W m (pos + length (concat (map bits_of bs))) s'.
Proof.
  pose proof (word_size_range W HW0) as HW.
  induction 1 as [|b bs [Lb Fb] _ IH]; intros m pos s R.
  - exists s. cbn [decode_all map concat length] in *. rewrite Nat.add_0_r. split; [reflexivity|apply R].
  - cbn [length decode_all map concat] in *.
    destruct (coeffs_spec b Lb Fb) as (c & X1 & X2 & X3 & X4 & _).
    destruct (decode_block_readable W HW P d minbits maxbits maxprec HD HM HM2 m pos s (coeffs b)) as (s1 & E1 & R1); auto.
    { fold (bits_of b). apply (readable_prefix W HW m pos (bits_of b) (concat (map bits_of bs))). exact R. }
    fold (bits_of b) in E1, R1. rewrite E1.
    destruct (IH m (pos + length (bits_of b))%nat s1) as (s2 & E2 & R2).
    { apply (readable_next W HW m pos (bits_of b) _ s s1); assumption. }
    rewrite E2. exists s2. split; [reflexivity|]. rewrite app_length, Nat.add_assoc. exact R2.
Qed.

Lemma sum_bits bs : sum (map (fun b => Z.of_nat (length (bits_of b))) bs) = Z.of_nat (length (concat (map bits_of bs))).
Proof. induction bs; [reflexivity|]. cbn [map sum fold_right concat]. rewrite app_length. unfold sum in IHbs. lia. Qed.

Lemma alone_recon words b : length b = (4 ^ d)%nat -> bounded (guard_max P) b ->
  (Z.to_nat (Z.max minbits maxbits) <= W * words)%nat ->
  alone W P d words minbits maxbits maxprec b = recon P d maxbits maxprec (coeffs b).
Proof.
  intros Lb Fb Hc. pose proof (word_size_range W HW0) as HW.
  destruct (coeffs_spec b Lb Fb) as (c & X1 & X2 & X3 & X4 & _).
  assert (BO : buffer_ok W (repeat 0 words)).
  { apply Forall_forall. intros x X. apply repeat_spec in X. subst x. split; [lia|]. apply Z.pow_pos_nonneg; lia. }
  assert (LB : (length (bits_of b) <= W * words)%nat).
  { pose proof (bits_of_length b Lb Fb). destruct (code_length (coeffs b) X3). lia. }
  destruct (start_wat W (repeat 0 words) 0 HW0 BO ltac:(lia)) as (Hw & L0 & Hcap).
  rewrite repeat_length in *.
  assert (S0 : stream_wseek W (stream_open (repeat 0 words)) 0 = stream_open (repeat 0 words)).
  { unfold stream_wseek. rewrite Nat.mod_0_l, Nat.div_0_l by lia. destruct words; reflexivity. }
  rewrite S0 in *. unfold alone.
  rewrite (encode_block_put W HW P d minbits maxbits maxprec HD HM HM2 _ _ b c (coeffs b) Hw); auto;
    [|fold (bits_of b); lia].
  fold (bits_of b).
  destruct (flush_readable W HW (repeat 0 words) 0 (bits_of b) BO) as (R & F & L & _).
  { rewrite repeat_length. lia. }
  rewrite S0 in *.
  assert (RW : forall s, stream_rewind s = stream_rseek W s 0).
  { intros s. unfold stream_rseek. rewrite Nat.mod_0_l, Nat.div_0_l by lia. destruct s; reflexivity. }
  rewrite RW.
  destruct (decode_block_readable W HW P d minbits maxbits maxprec HD HM HM2 _ _ _ (coeffs b) X3 X4 R) as (s1 & E1 & R1).
  rewrite E1. reflexivity.
Qed.

Lemma concat_bound bs : blocks_ok bs ->
  (length (concat (map bits_of bs)) <= length bs * Z.to_nat (Z.max minbits maxbits))%nat.
Proof.
  induction 1 as [|b bs [Lb Fb] _ IH]; [cbn; lia|]. cbn [map concat length]. rewrite app_length.
  pose proof (bits_of_length b Lb Fb). destruct (coeffs_spec b Lb Fb) as (c & _ & _ & X3 & _).
  destruct (code_length (coeffs b) X3). lia.
Qed.

(** C13: any number of blocks written one after the other.  Every block takes between
    minbits and maxbits bits (and never more than the full code), the writer and the
    reader agree on every block boundary, and each block decodes to what it decodes to
    when coded alone. *)
Theorem C13_blocks : forall buf off bs words,
  buffer_ok W buf -> blocks_ok bs -> minbits <= maxbits ->
  (Z.to_nat maxbits <= W * words)%nat ->
  (off + length bs * Z.to_nat maxbits <= W * length buf)%nat ->
  exists sizes s,
    encode_all W P d (stream_wseek W (stream_open buf) off) minbits maxbits maxprec bs = Some (sizes, s) /\
    fault s = false /\ length sizes = length bs /\
    Forall (fun n => minbits <= n <= maxbits /\
                     (n <= minbits \/ n <= Z.of_nat (full_bits (Nat.min P (Z.to_nat maxprec)) (4 ^ d)))) sizes /\
    Z.of_nat (stream_wtell W s) = Z.of_nat off + sum sizes /\
    let '(sizes', s', bs') :=
      decode_all W P d (stream_rseek W (snd (stream_flush W s)) off) minbits maxbits maxprec (length bs) in
    sizes' = sizes /\ fault s' = false /\ Z.of_nat (stream_rtell W s') = Z.of_nat off + sum sizes /\
    bs' = map (alone W P d words minbits maxbits maxprec) bs.
Proof.
  intros buf off bs words Hb Hbs Hmm Hwd Hc. pose proof (word_size_range W HW0) as HW.
  pose proof (concat_bound bs Hbs) as CB. rewrite Z.max_r in CB by lia.
  destruct (start_wat W buf off HW0 Hb ltac:(lia)) as (Hw & L0 & Hcap).
  destruct (encode_all_put bs Hbs _ _ Hw ltac:(lia)) as [E Hw'].
  eexists. eexists. split; [exact E|].
  split; [apply Hw'|]. split; [apply map_length|]. split; [|split].
  - apply Forall_forall. intros x X. apply in_map_iff in X as (b & <- & I).
    unfold blocks_ok in Hbs. rewrite Forall_forall in Hbs. destruct (Hbs b I) as [Lb Fb].
    pose proof (bits_of_length b Lb Fb). destruct (coeffs_spec b Lb Fb) as (c & _ & _ & X3 & _).
    destruct (code_length (coeffs b) X3). lia.
  - rewrite (wat_tell W HW _ _ Hw'), app_length, L0, sum_bits. lia.
  - destruct (flush_readable W HW buf off (concat (map bits_of bs)) Hb ltac:(lia)) as (R & F & L & _).
    destruct (decode_all_readable bs Hbs _ _ _ R) as (s' & E' & R'). rewrite E'.
    split; [reflexivity|]. split; [apply R'|]. split; [destruct R' as (_ & _ & _ & T & _); rewrite T, sum_bits; lia|].
    apply map_ext_in. intros b I. unfold blocks_ok in Hbs. rewrite Forall_forall in Hbs. destruct (Hbs b I) as [Lb Fb].
    symmetry. apply alone_recon; auto. rewrite Z.max_r by lia. assumption.
Qed.

(** fixed rate: minbits = maxbits; every block takes exactly maxbits bits, so block i can be
    decoded by seeking to its computed position *)
Theorem C13_fixed_rate : forall buf off bs words i,
  buffer_ok W buf -> blocks_ok bs -> minbits = maxbits ->
  (Z.to_nat maxbits <= W * words)%nat ->
  (off + length bs * Z.to_nat maxbits <= W * length buf)%nat -> (i < length bs)%nat ->
  exists s,
    encode_all W P d (stream_wseek W (stream_open buf) off) minbits maxbits maxprec bs =
      Some (repeat maxbits (length bs), s) /\
    let '(n, s', b) := decode_block W P d
      (stream_rseek W (snd (stream_flush W s)) (off + i * Z.to_nat maxbits)) minbits maxbits maxprec in
    n = maxbits /\ fault s' = false /\ b = alone W P d words minbits maxbits maxprec (nth i bs []).
Proof.
  intros buf off bs words i Hb Hbs Hmm Hwd Hc Hi. pose proof (word_size_range W HW0) as HW.
  pose proof (concat_bound bs Hbs) as CB. rewrite Z.max_r in CB by lia.
  destruct (start_wat W buf off HW0 Hb ltac:(lia)) as (Hw & L0 & Hcap).
  destruct (encode_all_put bs Hbs _ _ Hw ltac:(lia)) as [E Hw'].
  assert (LEN : forall b, In b bs -> length (bits_of b) = Z.to_nat maxbits).
  { intros b I. unfold blocks_ok in Hbs. rewrite Forall_forall in Hbs. destruct (Hbs b I) as [Lb Fb].
    pose proof (bits_of_length b Lb Fb). destruct (coeffs_spec b Lb Fb) as (c & _ & _ & X3 & _).
    destruct (code_length (coeffs b) X3). lia. }
  eexists. split.
  { rewrite E. f_equal. f_equal. clear - LEN HM. induction bs as [|b bs IH]; [reflexivity|]. cbn [map length repeat].
    rewrite LEN by (left; reflexivity). f_equal; [lia|]. apply IH. intros. apply LEN. right. assumption. }
  destruct (flush_readable W HW buf off (concat (map bits_of bs)) Hb ltac:(lia)) as (R & F & L & _).
  set (s1 := snd (stream_flush W _)) in *.
  destruct (nth_split bs [] Hi) as (l1 & l2 & EB & L1).
  assert (LP : length (concat (map bits_of l1)) = (i * Z.to_nat maxbits)%nat).
  { rewrite <- L1. assert (forall b, In b l1 -> length (bits_of b) = Z.to_nat maxbits) as LL
      by (intros b I; apply LEN; rewrite EB; apply in_or_app; auto).
    clear - LL. induction l1 as [|b l IH]; [reflexivity|]. cbn [map concat length]. rewrite app_length, LL by (left; reflexivity).
    rewrite IH by (intros; apply LL; right; assumption). lia. }
  assert (Hb1 : buffer_ok W (mem s1)).
  { destruct R as (R & _). destruct R as (R1 & _ & R2 & _). destruct R1 as (_ & _ & R1 & _).
    rewrite R2 in R1. exact R1. }
  destruct (Forall_forall (fun b => length b = (4 ^ d)%nat /\ bounded (guard_max P) b) bs) as [FF _].
  destruct (FF Hbs (nth i bs [])) as [Lb Fb]; [apply nth_In; assumption|].
  destruct (coeffs_spec _ Lb Fb) as (c & X1 & X2 & X3 & X4 & _).
  assert (R3 : readable W (mem s1) (off + i * Z.to_nat maxbits) (bits_of (nth i bs [])) (stream_rseek W s1 (off + i * Z.to_nat maxbits))).
  { rewrite EB in R. rewrite map_app, concat_app in R.
    rewrite <- LP. apply (readable_prefix W HW _ _ _ (concat (map bits_of l2))).
    apply (readable_next W HW _ off (concat (map bits_of l1)) _ (stream_rseek W s1 off)).
    - exact R.
    - apply rat_rseek; auto. rewrite L. rewrite LP. nia. }
  destruct (decode_block_readable W HW P d minbits maxbits maxprec HD HM HM2 _ _ _ _ X3 X4 R3) as (s2 & E2 & R2).
  rewrite E2. fold (bits_of (nth i bs [])). rewrite LEN by (apply nth_In; assumption).
  split; [lia|]. split; [apply R2|]. symmetry. apply alone_recon; auto. rewrite Z.max_r by lia. assumption.
Qed.
End C13.
Print Assumptions C13_blocks.
Print Assumptions C13_fixed_rate.

Example C13_nonvacuous :
  let bs := [[100; 200; -300; 400]; [0; 0; 0; 0]; [1; 1000000; 7; -9]] in
  word_size 64 /\ int_width 32 /\ dims 1 /\ blocks_ok 32 1 bs /\ buffer_ok 64 (repeat 5 20) /\
  match encode_all 64 32 1 (stream_wseek 64 (stream_open (repeat 5 20)) 7) 10 200 32 bs with
  | Some (sizes, s) => sizes = [60; 32; 95]
  | None => False
  end /\
  match encode_all 64 32 1 (stream_wseek 64 (stream_open (repeat 5 20)) 7) 64 64 32 bs with
  | Some (sizes, s) => sizes = [64; 64; 64]
  | None => False
  end.
Proof.
  cbv zeta. split; [right; right; right; reflexivity|]. split; [left; reflexivity|]. split; [unfold dims; lia|].
  split; [repeat constructor; vm_compute; discriminate|]. split; [repeat constructor; vm_compute; discriminate|].
  split; [vm_compute; reflexivity|vm_compute; reflexivity].
Qed.

(** any bits at all can be decoded: the block decoder consumes at least minbits and at most
    max(minbits, maxbits) bits and produces 4^d coefficients *)
Theorem C13_decode_any_input : forall W P d m pos minbits maxbits maxprec,
  word_size W -> dims d -> buffer_ok W m -> 0 <= maxbits < 2 ^ 31 -> 0 <= maxprec < 2 ^ 31 ->
  (pos + Z.to_nat (Z.max minbits maxbits) <= W * length m)%nat ->
  let '(n, s, _) := decode_block W P d (stream_rseek W (stream_open m) pos) minbits maxbits maxprec in
  minbits <= n <= Z.max minbits maxbits /\ fault s = false /\ mem s = m /\ Z.of_nat (stream_rtell W s) = Z.of_nat pos + n.
Proof.
  intros W P d m pos minbits maxbits maxprec HW0 HD Hb HM HM2 Hc. pose proof (word_size_range W HW0) as HW.
  assert (R0 : rat W m pos (stream_rseek W (stream_open m) pos)).
  { apply (rat_rseek W HW (stream_open m)); auto. change (mem (stream_open m)) with m. lia. }
  unfold decode_block. rewrite !uint_of_int_small by assumption.
  assert (exists c data s', (if (block_size d <=? 64)%nat
      then decode_ints W P (stream_rseek W (stream_open m) pos) (Z.to_nat maxbits) (Z.to_nat maxprec) (block_size d)
      else decode_many_ints W P (stream_rseek W (stream_open m) pos) (Z.to_nat maxbits) (Z.to_nat maxprec) (block_size d)) = (c, data, s')
      /\ (c <= Z.to_nat maxbits)%nat /\ rat W m (pos + c) s') as (c & data & s' & E & C & R).
  { pose proof (decode_any W HW P m pos _ (Z.to_nat maxbits) (Z.to_nat maxprec) (block_size d) R0 ltac:(lia)) as A.
    destruct (Nat.leb_spec (block_size d) 64).
    - rewrite (decoders_agree W HW P m pos) by (auto; lia).
      destruct (decode_many_ints W P _ _ _ _) as [[c data] s']. exists c, data, s'. split; [reflexivity|]. tauto.
    - destruct (decode_many_ints W P _ _ _ _) as [[c data] s']. exists c, data, s'. split; [reflexivity|]. tauto. }
  rewrite E. destruct (Z.ltb_spec (Z.of_nat c) minbits).
  - assert (R2 : rat W m (pos + c + Z.to_nat (minbits - Z.of_nat c)) (stream_skip W s' (Z.to_nat (minbits - Z.of_nat c)))).
    { apply rat_skip; auto. lia. }
    destruct R2 as (_ & F & M & T & _). conjs; auto; lia.
  - destruct R as (_ & F & M & T & _). conjs; auto; lia.
Qed.
Print Assumptions C13_decode_any_input.

Example C13_any_nonvacuous :
  let '(n, s, b) := decode_block 64 32 2 (stream_rseek 64 (stream_open [12345678901234567; 998877665544332211; 17]) 3) 100 120 32 in
  n = 120 /\ fault s = false /\ stream_rtell 64 s = 123%nat.
Proof. vm_compute. auto. Qed.

(** ** C14 *)
Lemma block_round_trip W P d buf off minbits maxbits maxprec b :
  word_size W -> int_width P -> dims d -> buffer_ok W buf -> length b = (4 ^ d)%nat -> bounded (guard_max P) b ->
  0 <= maxbits < 2 ^ 31 -> 0 <= maxprec < 2 ^ 31 ->
  (full_bits (Nat.min P (Z.to_nat maxprec)) (4 ^ d) <= Z.to_nat maxbits)%nat ->
  (off + Nat.max (Z.to_nat minbits) (full_bits (Nat.min P (Z.to_nat maxprec)) (4 ^ d)) <= W * length buf)%nat ->
  exists n s c c',
    encode_block W P d (stream_wseek W (stream_open buf) off) minbits maxbits maxprec b = Some (n, s) /\
    fwd_xform P d b = Some c /\ length c' = length c /\
    (forall i, (i < 4 ^ d)%nat -> nth i c' 0 = uint2int P (keep_top P (Z.to_nat maxprec) (int2uint P (nth i c 0)))) /\
    bounded (guard_max P) c /\ length c = (4 ^ d)%nat /\
    snd (decode_block W P d (stream_rseek W (snd (stream_flush W s)) off) minbits maxbits maxprec) = inv_xform P d c'.
Proof.
  intros HW0 HP HD Hb Lb Fb HM HM2 Hfull Hc. pose proof (word_size_range W HW0) as HW.
  destruct (coeffs_spec P d minbits maxbits maxprec HP HD b Lb Fb) as (c & X1 & X2 & X3 & X4 & X5 & X6).
  set (u := match fwd_xform P d b with Some c => map (fun p => int2uint P (nth p c 0)) (perm_of d) | None => [] end) in *.
  set (mb := Z.to_nat maxbits) in *. set (mp := Z.to_nat maxprec) in *.
  assert (CF : (length (ecode P (kmin_of P mp) 0 u) <= mb)%nat).
  { etransitivity; [|exact Hfull]. rewrite <- X3 at 1. apply ecode_full.
    intros E. rewrite E in X3. unfold block_size in X3. cbn in X3. symmetry in X3. apply Nat.pow_nonzero in X3; lia. }
  assert (CL : (length (code P mb mp u) <= full_bits (Nat.min P mp) (4 ^ d))%nat).
  { unfold code. rewrite firstn_length. etransitivity; [apply Nat.le_min_r|]. rewrite <- X3 at 1. apply ecode_full.
    intros E. rewrite E in X3. unfold block_size in X3. cbn in X3. symmetry in X3. apply Nat.pow_nonzero in X3; lia. }
  assert (HB : (off + length (block_bits P minbits maxbits maxprec u) <= W * length buf)%nat).
  { unfold block_bits. rewrite padded_length. fold mb mp. lia. }
  destruct (start_wat W buf off HW0 Hb ltac:(lia)) as (Hw & L0 & Hcap).
  pose proof (encode_block_put W HW P d minbits maxbits maxprec HD HM HM2 _ _ b c u Hw X1 X2 X3 ltac:(lia)) as E.
  destruct (flush_readable W HW buf off _ Hb HB) as (R & F & L & _).
  destruct (decode_block_readable W HW P d minbits maxbits maxprec HD HM HM2 _ _ _ u X3 X4 R) as (s1 & E1 & R1).
  pose proof (readable_prefix W HW _ _ (code P mb mp u) _ _ R) as RC.
  destruct (decode_any_readable W HW P d mb mp u _ _ _ X3 ltac:(apply Nat.neq_0_lt_0, Nat.pow_nonzero; lia) X4 RC) as (s2 & _ & _ & D).
  apply (decoded_full W HW) in D; [|exact CF].
  pose proof (perm_of_ok d HD) as OK.
  assert (LD : length (dec_data P mb mp (block_size d) (code P mb mp u)) = block_size d) by (rewrite D, map_length; exact X3).
  destruct (inv_order_ok P (block_size d) (perm_of d) _ OK LD) as (c' & C1 & C2 & C3).
  eexists. eexists. exists c, c'. split; [exact E|]. split; [exact X1|].
  split; [rewrite C2, LD, X6; reflexivity|]. split; [|split; [exact X5|split; [exact X6|]]].
  - intros i I. destruct (perm_surj _ _ i OK) as (k & K & EK); [exact I|]. rewrite <- EK. rewrite C3 by lia.
    rewrite D. destruct OK as (OK1 & _).
    assert (K0 : keep_top P mp 0 = 0) by (unfold keep_top; rewrite Z.mod_0_l; [lia|]; apply Z.pow_nonzero; lia).
    rewrite <- K0 at 1. rewrite map_nth. f_equal. f_equal. unfold u. rewrite X1.
    set (g := fun p => int2uint P (nth p c 0)).
    rewrite (nth_indep _ 0 (g 0%nat)) by (rewrite map_length; lia). rewrite map_nth. reflexivity.
  - rewrite E1. cbn [snd]. unfold recon. fold mb mp. rewrite C1. reflexivity.
Qed.

Lemma close_nth E a b : length b = length a -> (forall i, (i < length a)%nat -> Z.abs (nth i a 0 - nth i b 0) <= E) -> close E a b.
Proof. intros L H. apply (Forall2_nth _ _ _ 0); [lia|]. assumption. Qed.

(** full precision, sufficient budget: every value comes back within 2, 10, 40, 153 *)
Theorem C14_near_lossless : forall W P d buf off minbits maxbits maxprec b,
  word_size W -> int_width P -> dims d -> buffer_ok W buf -> length b = (4 ^ d)%nat ->
  bounded (guard_max P - headroom d) b ->
  0 <= maxbits < 2 ^ 31 -> Z.of_nat P <= maxprec < 2 ^ 31 ->
  (full_bits P (4 ^ d) <= Z.to_nat maxbits)%nat ->
  (off + Nat.max (Z.to_nat minbits) (full_bits P (4 ^ d)) <= W * length buf)%nat ->
  exists n s b',
    encode_block W P d (stream_wseek W (stream_open buf) off) minbits maxbits maxprec b = Some (n, s) /\
    snd (decode_block W P d (stream_rseek W (snd (stream_flush W s)) off) minbits maxbits maxprec) = Some b' /\
    close (roundoff d) b b'.
Proof.
  intros W P d buf off minbits maxbits maxprec b HW0 HP HD Hb Lb Fb HM HM2 Hfull Hc.
  assert (GM : 83 <= guard_max P) by (unfold guard_max; destruct HP as [-> | ->]; vm_compute; discriminate).
  assert (HH : 0 <= headroom d) by (unfold headroom; destruct d as [|[|[|[|]]]]; lia).
  assert (Fb2 : bounded (guard_max P) b) by (eapply Forall_impl; [|exact Fb]; cbn; lia).
  assert (MP : Nat.min P (Z.to_nat maxprec) = P) by lia.
  destruct (block_round_trip W P d buf off minbits maxbits maxprec b) as (n & s & c & c' & E & X & L & K & BC & LC & D); auto;
    rewrite ?MP; auto; [lia|].
  assert (c' = c).
  { apply nth_ext0; [lia|]. intros i I. rewrite K by lia. unfold keep_top. replace (P - Z.to_nat maxprec)%nat with 0%nat by lia.
    change (2 ^ Z.of_nat 0) with 1. rewrite Z.mod_1_r, Z.sub_0_r. apply uint2int_int2uint; [exact HP|].
    unfold bounded in BC. rewrite Forall_forall in BC. specialize (BC (nth i c 0) ltac:(apply nth_In; lia)).
    unfold guard_max in BC. assert (2 ^ (Z.of_nat P - 2) <= 2 ^ (Z.of_nat P - 1)) by (apply Z.pow_le_mono_r; lia). lia. }
  subst c'.
  destruct (C08_near_inverse P d b c) as (b' & B1 & B2); auto; [destruct HP; lia|].
  exists n, s, b'. rewrite D. auto.
Qed.
Print Assumptions C14_near_lossless.

(** reduced precision: the truncation error of the coefficients times at most (15/4)^d *)
Theorem C14_precision : forall W P d buf off minbits maxbits maxprec b B,
  word_size W -> int_width P -> dims d -> buffer_ok W buf -> length b = (4 ^ d)%nat ->
  0 <= maxbits < 2 ^ 31 -> 0 <= maxprec < 2 ^ 31 ->
  let E := 2 ^ Z.of_nat (P - Z.to_nat maxprec) - 1 in
  2 <= B -> bounded B b -> B + 2 * growth (d - 1) E + 1 <= guard_max P ->
  (full_bits (Nat.min P (Z.to_nat maxprec)) (4 ^ d) <= Z.to_nat maxbits)%nat ->
  (off + Nat.max (Z.to_nat minbits) (full_bits (Nat.min P (Z.to_nat maxprec)) (4 ^ d)) <= W * length buf)%nat ->
  exists n s b',
    encode_block W P d (stream_wseek W (stream_open buf) off) minbits maxbits maxprec b = Some (n, s) /\
    snd (decode_block W P d (stream_rseek W (snd (stream_flush W s)) off) minbits maxbits maxprec) = Some b' /\
    close (growth d E) b b'.
Proof.
  intros W P d buf off minbits maxbits maxprec b B HW0 HP HD Hb Lb HM HM2 E HB Fb HG Hfull Hc.
  assert (HE : 0 <= E) by (unfold E; assert (0 < 2 ^ Z.of_nat (P - Z.to_nat maxprec)) by (apply Z.pow_pos_nonneg; lia); lia).
  pose proof (growth_ge (d - 1) E HE).
  assert (Fb2 : bounded (guard_max P) b) by (eapply Forall_impl; [|exact Fb]; cbn; lia).
  destruct (block_round_trip W P d buf off minbits maxbits maxprec b) as (n & s & c & c' & EN & X & L & K & BC & LC & D); auto.
  destruct (C08_stability P d b c c' B E) as (b' & B1 & B2); auto; [destruct HP; lia| |].
  - apply close_nth; [assumption|]. intros i I. rewrite K by lia.
    unfold bounded in BC. rewrite Forall_forall in BC. specialize (BC (nth i c 0) ltac:(apply nth_In; lia)).
    unfold guard_max in BC. pose proof (keep_top_error P HP (nth i c 0) (Z.to_nat maxprec) ltac:(lia)). unfold E. lia.
  - exists n, s, b'. rewrite D. auto.
Qed.
Print Assumptions C14_precision.

(** two guard bits are not enough at reduced precision: the decoder's inverse transform
    overflows for a constant block near the limit *)
Theorem C14_two_guard_bits_refuted :
  exists b n s, bounded (guard_max 32) b /\ length b = 4%nat /\
    encode_block 64 32 1 (stream_open (repeat 0 10)) 0 200 16 b = Some (n, s) /\
    snd (decode_block 64 32 1 (stream_rewind (snd (stream_flush 64 s))) 0 200 16) = None.
Proof.
  exists [1073741823; 1073741823; 1073741823; 1073741823]. do 2 eexists.
  split; [repeat constructor; vm_compute; discriminate|]. split; [reflexivity|].
  split; [vm_compute; reflexivity|vm_compute; reflexivity].
Qed.
Print Assumptions C14_two_guard_bits_refuted.

Example C14_nonvacuous :
  let b := [1000000; 2000000; 3000000; 4100000; 1; 2; 3; 4; -5; -6; -7; -8; 100; 200; 300; 400] in
  bounded (guard_max 32 - headroom 2) b /\ growth 2 (2 ^ Z.of_nat (32 - 20) - 1) = 57599 /\
  4100000 + 2 * growth 1 (2 ^ Z.of_nat (32 - 20) - 1) + 1 <= guard_max 32 /\
  (exists s b', encode_block 64 32 2 (stream_wseek 64 (stream_open (repeat 1 20)) 9) 0 1000 20 b = Some (135, s) /\
    snd (decode_block 64 32 2 (stream_rseek 64 (snd (stream_flush 64 s)) 9) 0 1000 20) = Some b').
Proof.
  split; [repeat constructor; vm_compute; discriminate|]. split; [reflexivity|]. split; [vm_compute; discriminate|].
  do 2 eexists. split; [vm_compute; reflexivity|vm_compute; reflexivity].
Qed.
