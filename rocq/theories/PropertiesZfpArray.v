(** Properties C16, C17, C22: strided blocks, traversal of arrays, parallel compression.
    Vocabulary: ArraySpec.v (coordinates, addresses, padded blocks) and StreamSpec.v. *)
From Coq Require Import ZArith List Bool Arith Lia ZifyNat.
From Verif Require Import ListAux Bits Bitstream BitstreamProofs BitstreamProofs2 StreamSpec StreamRuns.
From Verif Require Import EmbedSpec ZfpCodec ZfpCodecProofs ZfpCodecProofs2 EmbedRuns ZfpXform BlockSpec BlockProofs PropertiesZfpEmbed PropertiesZfpBlock.
From Verif Require Import XformProofs ZfpArray ZfpPar ArraySpec ArrayProofs ArrayProofs2 ArrayProofs3 ArrayProofs4 ParProofs.
Import ListNotations.
Local Open Scope Z_scope.
Ltac Zify.zify_post_hook ::= Z.to_euclidean_division_equations.

(** ** C16 *)
Section C16.
Variable A : Type.
Variable zero : A.

(** the functions for the d axes of extents ws and strides ss *)
Definition gather_partial (q m : list A) (p : Z) (ws : list nat) (ss : list Z) : option (list A) :=
  match ws, ss with
  | [nx], [sx] => gather_partial1 A zero q m p nx sx
  | [nx; ny], [sx; sy] => gather_partial2 A zero q m p nx ny sx sy
  | [nx; ny; nz], [sx; sy; sz] => gather_partial3 A zero q m p nx ny nz sx sy sz
  | [nx; ny; nz; nw], [sx; sy; sz; sw] => gather_partial4 A zero q m p nx ny nz nw sx sy sz sw
  | _, _ => None
  end.
Definition gather_full (m : list A) (p : Z) (ss : list Z) : option (list A) :=
  match ss with
  | [sx] => gather1 A m p sx
  | [sx; sy] => gather2 A m p sx sy
  | [sx; sy; sz] => gather3 A m p sx sy sz
  | [sx; sy; sz; sw] => gather4 A m p sx sy sz sw
  | _ => None
  end.
Definition scatter_partial (q m : list A) (p : Z) (ws : list nat) (ss : list Z) : option (list A) :=
  match ws, ss with
  | [nx], [sx] => scatter_partial1 A q m p nx sx
  | [nx; ny], [sx; sy] => scatter_partial2 A q m p nx ny sx sy
  | [nx; ny; nz], [sx; sy; sz] => scatter_partial3 A q m p nx ny nz sx sy sz
  | [nx; ny; nz; nw], [sx; sy; sz; sw] => scatter_partial4 A q m p nx ny nz nw sx sy sz sw
  | _, _ => None
  end.
Definition scatter_full (q m : list A) (p : Z) (ss : list Z) : option (list A) :=
  match ss with
  | [sx] => scatter1 A q m p sx
  | [sx; sy] => scatter2 A q m p sx sy
  | [sx; sy; sz] => scatter3 A q m p sx sy sz
  | [sx; sy; sz; sw] => scatter4 A q m p sx sy sz sw
  | _ => None
  end.

(** a block of extents ws at address p *)
Definition block_shape (ws : list nat) (ss : list Z) : Prop :=
  (1 <= length ws <= 4)%nat /\ length ss = length ws /\ Forall (fun n => 1 <= n <= 4)%nat ws.

Ltac shape HS ws ss :=
  destruct HS as (HS1 & HS2 & HS3);
  destruct ws as [|? [|? [|? [|? [|? ?]]]]]; cbn [length] in HS1, HS2; try lia;
  destruct ss as [|? [|? [|? [|? [|? ?]]]]]; cbn [length] in HS2; try lia; clear HS1 HS2;
  repeat match goal with H : Forall _ (_ :: _) |- _ => inversion H; clear H; subst end;
  repeat match goal with H : Forall _ [] |- _ => clear H end.

(** gathering reads the element at every position of the block; positions outside the
    array part repeat an element of the array part, chosen by pad4 *)
Theorem C16_gather : forall q m p ws ss, block_shape ws ss -> length q = (4 ^ length ws)%nat -> fits m p ws ss ->
  let b := map (fun i => at_addr zero m (addr p ss (map2 pad4 ws (position (length ws) i)))) (seq 0 (4 ^ length ws)) in
  gather_partial q m p ws ss = Some b /\ (Forall (fun n => n = 4%nat) ws -> gather_full m p ss = Some b).
Proof.
  intros q m p ws ss HS HQ HF. shape HS ws ss.
  - cbn [gather_partial gather_full].
    assert (OK : ok1 A m n z p).
    { intros x Hx. unfold ok_addr. pose proof (HF [x] ltac:(repeat constructor; assumption)) as H0. cbn [addr] in H0. lia. }
    assert (E : map (v1 A zero m n z p) (seq 0 4) =
      map (fun i => at_addr zero m (addr p [z] (map2 pad4 [n] (position 1 i)))) (seq 0 4)).
    { apply map_ext_in. intros i Hi. apply in_seq in Hi. unfold v1. cbn [position repeat digits map2 combine map addr].
      replace (i mod 4)%nat with i by lia. reflexivity. }
    cbn [length]. change (4 ^ 1)%nat with 4%nat in *. cbv zeta. rewrite <- E. split.
    + apply gather_partial1_ok; auto.
    + intros HW. pose proof (Forall_inv HW). cbv beta in *. subst n. apply gather1_ok. exact OK.
  - cbn [gather_partial gather_full].
    assert (OK : ok2 A m n n0 z z0 p).
    { intros y Hy x Hx. unfold ok_addr. pose proof (HF [x; y] ltac:(repeat constructor; assumption)) as H0. cbn [addr] in H0. lia. }
    assert (E : map (v2 A zero m n n0 z z0 p) (seq 0 16) =
      map (fun i => at_addr zero m (addr p [z; z0] (map2 pad4 [n; n0] (position 2 i)))) (seq 0 16)).
    { apply map_ext_in. intros i Hi. apply in_seq in Hi. unfold v2, v1. cbn [position repeat digits map2 combine map addr].
      replace (i / 4 mod 4)%nat with (i / 4)%nat by lia. f_equal. lia. }
    cbn [length]. change (4 ^ 2)%nat with 16%nat in *. cbv zeta. rewrite <- E. split.
    + apply gather_partial2_ok; auto.
    + intros HW. pose proof (Forall_inv HW). apply Forall_inv_tail in HW. pose proof (Forall_inv HW). cbv beta in *. subst n n0.
      apply gather2_ok. exact OK.
  - cbn [gather_partial gather_full].
    assert (OK : ok3 A m n n0 n1 z z0 z1 p).
    { intros w Hw y Hy x Hx. unfold ok_addr. pose proof (HF [x; y; w] ltac:(repeat constructor; assumption)) as H0. cbn [addr] in H0. lia. }
    assert (E : map (v3 A zero m n n0 n1 z z0 z1 p) (seq 0 64) =
      map (fun i => at_addr zero m (addr p [z; z0; z1] (map2 pad4 [n; n0; n1] (position 3 i)))) (seq 0 64)).
    { apply map_ext_in. intros i Hi. apply in_seq in Hi. unfold v3, v2, v1. cbn [position repeat digits map2 combine map addr].
      replace (i mod 16 mod 4)%nat with (i mod 4)%nat by lia. replace (i mod 16 / 4)%nat with (i / 4 mod 4)%nat by lia.
      replace (i / 16)%nat with (i / 4 / 4 mod 4)%nat by lia. f_equal. ring. }
    cbn [length]. change (4 ^ 3)%nat with 64%nat in *. cbv zeta. rewrite <- E. split.
    + apply gather_partial3_ok; auto.
    + intros HW. pose proof (Forall_inv HW). apply Forall_inv_tail in HW. pose proof (Forall_inv HW).
      apply Forall_inv_tail in HW. pose proof (Forall_inv HW). cbv beta in *. subst n n0 n1. apply gather3_ok. exact OK.
  - cbn [gather_partial gather_full].
    assert (OK : ok4 A m n n0 n1 n2 z z0 z1 z2 p).
    { intros v Hv w Hw y Hy x Hx. unfold ok_addr. pose proof (HF [x; y; w; v] ltac:(repeat constructor; assumption)) as H0. cbn [addr] in H0. lia. }
    assert (E : map (v4 A zero m n n0 n1 n2 z z0 z1 z2 p) (seq 0 256) =
      map (fun i => at_addr zero m (addr p [z; z0; z1; z2] (map2 pad4 [n; n0; n1; n2] (position 4 i)))) (seq 0 256)).
    { apply map_ext_in. intros i Hi. apply in_seq in Hi. unfold v4, v3, v2, v1. cbn [position repeat digits map2 combine map addr].
      replace (i mod 64 mod 16 mod 4)%nat with (i mod 4)%nat by lia. replace (i mod 64 mod 16 / 4)%nat with (i / 4 mod 4)%nat by lia.
      replace (i mod 64 / 16)%nat with (i / 4 / 4 mod 4)%nat by lia. replace (i / 64)%nat with (i / 4 / 4 / 4 mod 4)%nat by lia. f_equal. ring. }
    cbn [length]. change (4 ^ 4)%nat with 256%nat in *. cbv zeta. rewrite <- E. split.
    + apply gather_partial4_ok; auto.
    + intros HW. pose proof (Forall_inv HW). apply Forall_inv_tail in HW. pose proof (Forall_inv HW).
      apply Forall_inv_tail in HW. pose proof (Forall_inv HW). apply Forall_inv_tail in HW. pose proof (Forall_inv HW).
      cbv beta in *. subst n n0 n1 n2. apply gather4_ok. exact OK.
Qed.

Lemma scatter_writes : forall q m p ws ss, block_shape ws ss -> length q = (4 ^ length ws)%nat -> fits m p ws ss ->
  exists L, scatter_partial q m p ws ss = Some (writes A m L) /\
    (Forall (fun n => n = 4%nat) ws -> scatter_full q m p ss = Some (writes A m L)) /\
    forall a v, In (a, v) L <->
      exists cs, inside cs ws /\ a = addr p ss cs /\ v = nth (number (repeat 4%nat (length ws)) cs) q zero.
Proof.
  intros q m p ws ss HS HQ HF. shape HS ws ss.
  - cbn [scatter_partial scatter_full].
    assert (OK : forall x, (x < n)%nat -> okw (length m) (p + z * Z.of_nat x)).
    { intros x Hx. unfold okw. pose proof (HF [x] ltac:(repeat constructor; assumption)) as H0. cbn [addr] in H0. lia. }
    exists (L1 A zero q n z p 0). split; [apply scatter_partial1_ok; auto; lia|]. split.
    { intros HW. pose proof (Forall_inv HW). cbv beta in *. subst n. apply scatter1_ok; auto. }
    intros a v. rewrite in_L1. split.
    + intros (x & Hx & -> & ->). exists [x]. split; [repeat constructor; exact Hx|]. split; [reflexivity|]. f_equal. cbn [number length repeat]. lia.
    + intros (cs & Hc & -> & ->). inversion Hc as [|x ? ? ? Hx Hc1]; subst. inversion Hc1; subst. exists x.
      split; [exact Hx|]. split; [reflexivity|]. f_equal. cbn [number length repeat]. lia.
  - cbn [scatter_partial scatter_full].
    assert (OK : forall y x, (y < n0)%nat -> (x < n)%nat -> okw (length m) (p + z0 * Z.of_nat y + z * Z.of_nat x)).
    { intros y x Hy Hx. unfold okw. pose proof (HF [x; y] ltac:(repeat constructor; assumption)) as H0. cbn [addr] in H0. lia. }
    exists (L2 A zero q n n0 z z0 p 0). split; [apply scatter_partial2_ok; auto; lia|]. split.
    { intros HW. pose proof (Forall_inv HW). apply Forall_inv_tail in HW. pose proof (Forall_inv HW). cbv beta in *. subst n n0. apply scatter2_ok; auto. }
    intros a v. rewrite in_L2. split.
    + intros (x & y & Hx & Hy & -> & ->). exists [x; y]. split; [repeat constructor; assumption|]. split; [reflexivity|]. f_equal. cbn [number length repeat]. lia.
    + intros (cs & Hc & -> & ->). inversion Hc as [|x ? ? ? Hx Hc1]; subst. inversion Hc1 as [|y ? ? ? Hy Hc2]; subst. inversion Hc2; subst. exists x, y.
      split; [exact Hx|]. split; [exact Hy|]. split; [reflexivity|]. f_equal. cbn [number length repeat]. lia.
  - cbn [scatter_partial scatter_full].
    assert (OK : forall w y x, (w < n1)%nat -> (y < n0)%nat -> (x < n)%nat -> okw (length m) (p + z1 * Z.of_nat w + z0 * Z.of_nat y + z * Z.of_nat x)).
    { intros w y x Hw Hy Hx. unfold okw. pose proof (HF [x; y; w] ltac:(repeat constructor; assumption)) as H0. cbn [addr] in H0. lia. }
    exists (L3 A zero q n n0 n1 z z0 z1 p 0). split; [apply scatter_partial3_ok; auto; lia|]. split.
    { intros HW. pose proof (Forall_inv HW). apply Forall_inv_tail in HW. pose proof (Forall_inv HW).
      apply Forall_inv_tail in HW. pose proof (Forall_inv HW). cbv beta in *. subst n n0 n1. apply scatter3_ok; auto. }
    intros a v. rewrite in_L3. split.
    + intros (x & y & w & Hx & Hy & Hw & -> & ->). exists [x; y; w]. split; [repeat constructor; assumption|]. split; [reflexivity|]. f_equal. cbn [number length repeat]. lia.
    + intros (cs & Hc & -> & ->). inversion Hc as [|x ? ? ? Hx Hc1]; subst. inversion Hc1 as [|y ? ? ? Hy Hc2]; subst.
      inversion Hc2 as [|w ? ? ? Hw Hc3]; subst. inversion Hc3; subst. exists x, y, w.
      split; [exact Hx|]. split; [exact Hy|]. split; [exact Hw|]. split; [reflexivity|]. f_equal. cbn [number length repeat]. lia.
  - cbn [scatter_partial scatter_full].
    assert (OK : forall v w y x, (v < n2)%nat -> (w < n1)%nat -> (y < n0)%nat -> (x < n)%nat ->
      okw (length m) (p + z2 * Z.of_nat v + z1 * Z.of_nat w + z0 * Z.of_nat y + z * Z.of_nat x)).
    { intros v w y x Hv Hw Hy Hx. unfold okw. pose proof (HF [x; y; w; v] ltac:(repeat constructor; assumption)) as H0. cbn [addr] in H0. lia. }
    exists (L4 A zero q n n0 n1 n2 z z0 z1 z2 p 0). split; [apply scatter_partial4_ok; auto; lia|]. split.
    { intros HW. pose proof (Forall_inv HW). apply Forall_inv_tail in HW. pose proof (Forall_inv HW).
      apply Forall_inv_tail in HW. pose proof (Forall_inv HW). apply Forall_inv_tail in HW. pose proof (Forall_inv HW).
      cbv beta in *. subst n n0 n1 n2. apply scatter4_ok; auto. }
    intros a v. rewrite in_L4. split.
    + intros (x & y & w & t & Hx & Hy & Hw & Ht & -> & ->). exists [x; y; w; t]. split; [repeat constructor; assumption|]. split; [reflexivity|]. f_equal. cbn [number length repeat]. lia.
    + intros (cs & Hc & -> & ->). inversion Hc as [|x ? ? ? Hx Hc1]; subst. inversion Hc1 as [|y ? ? ? Hy Hc2]; subst.
      inversion Hc2 as [|w ? ? ? Hw Hc3]; subst. inversion Hc3 as [|t ? ? ? Ht Hc4]; subst. inversion Hc4; subst. exists x, y, w, t.
      split; [exact Hx|]. split; [exact Hy|]. split; [exact Hw|]. split; [exact Ht|]. split; [reflexivity|]. f_equal. cbn [number length repeat]. lia.
Qed.

(** scattering stores every value of the array part at its address and touches nothing else *)
Theorem C16_scatter : forall q m p ws ss, block_shape ws ss -> length q = (4 ^ length ws)%nat ->
  fits m p ws ss -> no_overlap p ws ss ->
  exists m', scatter_partial q m p ws ss = Some m' /\
    (Forall (fun n => n = 4%nat) ws -> scatter_full q m p ss = Some m') /\
    length m' = length m /\
    (forall cs, inside cs ws -> at_addr zero m' (addr p ss cs) = nth (number (repeat 4%nat (length ws)) cs) q zero) /\
    (forall a, 0 <= a -> (forall cs, inside cs ws -> addr p ss cs <> a) -> at_addr zero m' a = at_addr zero m a).
Proof.
  intros q m p ws ss HS HQ HF HN. destruct (scatter_writes q m p ws ss HS HQ HF) as (L & E & EF & HW).
  exists (writes A m L). conjs; [exact E|exact EF|apply writes_length| |].
  - intros cs Hc. apply writes_same.
    + intros a v I. apply HW in I. destruct I as (ds & Hd & -> & _). apply HF. exact Hd.
    + apply HW. exists cs. auto.
    + intros v I. apply HW in I. destruct I as (ds & Hd & EA & ->). apply HN in EA; auto. subst ds. reflexivity.
  - intros a Ha H. apply writes_other.
    + intros c v I. apply HW in I. destruct I as (ds & Hd & -> & _). apply HF in Hd. lia.
    + exact Ha.
    + intros v I. apply HW in I. destruct I as (ds & Hd & EA & _). apply (H ds Hd). auto.
Qed.

Lemma inside_four cs ws : Forall (fun n => 1 <= n <= 4)%nat ws -> inside cs ws -> inside cs (repeat 4%nat (length ws)).
Proof.
  intros HW H. induction H as [|c n cs ns Hc H IH]; cbn; constructor.
  - pose proof (Forall_inv HW). cbv beta in *. lia.
  - apply IH. exact (Forall_inv_tail HW).
Qed.
Lemma pad_inside cs ws : inside cs ws -> map2 pad4 ws cs = cs.
Proof.
  intros H. induction H as [|c n cs ns Hc H IH]; [reflexivity|]. change (pad4 n c :: map2 pad4 ns cs = c :: cs).
  rewrite IH, pad4_id by exact Hc. reflexivity.
Qed.
Lemma list_at (m m' : list A) : length m' = length m -> (forall a, 0 <= a < Z.of_nat (length m) -> at_addr zero m' a = at_addr zero m a) -> m' = m.
Proof.
  intros HL H. apply nth_ext with (d := zero) (d' := zero); [exact HL|]. intros i Hi. specialize (H (Z.of_nat i)).
  unfold at_addr in H. rewrite Nat2Z.id in H. apply H. lia.
Qed.
Lemma inside_dec a p ws ss : Forall (fun n => 1 <= n <= 4)%nat ws ->
  (exists cs, inside cs ws /\ addr p ss cs = a) \/ (forall cs, inside cs ws -> addr p ss cs <> a).
Proof.
  intros _. set (N := fold_right Nat.mul 1%nat ws).
  assert (D : forall n, (exists k, (k < n)%nat /\ inside (digits ws k) ws /\ addr p ss (digits ws k) = a) \/
    (forall k, (k < n)%nat -> inside (digits ws k) ws -> addr p ss (digits ws k) <> a)).
  { induction n as [|n [ (k & H)|H]]; [right; intros; lia|left; exists k; intuition lia|].
    destruct (Z.eq_dec (addr p ss (digits ws n)) a) as [E|E].
    - destruct (Forall_dec (fun n => 0 < n)%nat (fun n => lt_dec 0 n) ws) as [P|P].
      + left. exists n. split; [lia|]. split; [apply digits_inside; exact P|exact E].
      + right. intros k Hk I. exfalso. apply P. clear - I. remember (digits ws k) as c eqn:Ec. clear Ec. induction I; constructor; auto. lia.
    - right. intros k Hk I. destruct (Nat.eq_dec k n) as [->|]; [exact E|]. apply H; [lia|exact I]. }
  destruct (D N) as [(k & _ & I & E)|H].
  - left. exists (digits ws k). auto.
  - right. intros cs I E. apply (H (number ws cs)); [apply number_lt; exact I|rewrite digits_number by exact I; exact I|].
    rewrite digits_number by exact I. exact E.
Qed.

(** gathering and scattering back changes nothing, whatever the contents of the padding *)
Theorem C16_round_trip : forall q m p ws ss, block_shape ws ss -> length q = (4 ^ length ws)%nat ->
  fits m p ws ss -> no_overlap p ws ss ->
  exists b, gather_partial q m p ws ss = Some b /\ scatter_partial b m p ws ss = Some m.
Proof.
  intros q m p ws ss HS HQ HF HN. destruct (C16_gather q m p ws ss HS HQ HF) as [E _]. cbv zeta in E.
  eexists. split; [exact E|]. set (b := map _ _) in *.
  assert (HL : length b = (4 ^ length ws)%nat) by (unfold b; rewrite map_length, seq_length; reflexivity).
  destruct (C16_scatter b m p ws ss HS HL HF HN) as (m' & E' & _ & L & T1 & T2). rewrite E'. f_equal.
  apply list_at; [exact L|]. intros a Ha. destruct HS as (S1 & S2 & S3).
  destruct (inside_dec a p ws ss S3) as [(cs & Hc & <-)|H]; [|apply T2; [lia|exact H]].
  rewrite T1 by exact Hc. pose proof (inside_four cs ws S3 Hc) as I4. set (k := number _ cs).
  assert (Hk : (k < 4 ^ length ws)%nat) by (unfold k; rewrite <- prod_four; apply number_lt; exact I4).
  unfold b. rewrite (nth_indep _ zero ((fun i => at_addr zero m (addr p ss (map2 pad4 ws (position (length ws) i)))) 0%nat)) by (rewrite map_length, seq_length; exact Hk).
  rewrite (map_nth (fun i => at_addr zero m (addr p ss (map2 pad4 ws (position (length ws) i))))), seq_nth by exact Hk. cbn [Nat.add].
  unfold position, k. rewrite digits_number by exact I4. rewrite pad_inside by exact Hc. reflexivity.
Qed.
End C16.
Print Assumptions C16_gather.
Print Assumptions C16_scatter.
Print Assumptions C16_round_trip.

(** a 3 x 2 block with row stride 7 and negative column stride *)
Example C16_nonvacuous :
  let m := map Z.of_nat (seq 100 20) in
  block_shape [3; 2]%nat [-1; 7] /\ fits m 5 [3; 2]%nat [-1; 7] /\ no_overlap 5 [3; 2]%nat [-1; 7] /\
  gather_partial Z 0 (repeat 0 16) m 5 [3; 2]%nat [-1; 7] =
    Some [105; 104; 103; 105; 112; 111; 110; 112; 112; 111; 110; 112; 105; 104; 103; 105] /\
  scatter_partial Z (map Z.of_nat (seq 1 16)) m 5 [3; 2]%nat [-1; 7] =
    Some [100; 101; 102; 3; 2; 1; 106; 107; 108; 109; 7; 6; 5; 113; 114; 115; 116; 117; 118; 119].
Proof.
  cbv zeta. split; [repeat split; cbn; repeat constructor; lia|]. split; [|split; [|split; vm_compute; reflexivity]].
  - intros cs H. inversion H as [|x ? ? ? Hx H1]; subst. inversion H1 as [|y ? ? ? Hy H2]; subst. inversion H2; subst.
    cbn [addr length map seq]. lia.
  - intros cs ds H G. inversion H as [|x ? ? ? Hx H1]; subst. inversion H1 as [|y ? ? ? Hy H2]; subst. inversion H2; subst.
    inversion G as [|x' ? ? ? Hx' G1]; subst. inversion G1 as [|y' ? ? ? Hy' G2]; subst. inversion G2; subst.
    cbn [addr]. intros E. assert (x = x' /\ y = y') as [-> ->] by lia. reflexivity.
Qed.

(** ** C17 *)
(** strides of an array in C order, axis by axis; a given stride of 0 means the default *)
Fixpoint c_order (acc : Z) (ns : list nat) (given : list Z) : list Z :=
  match ns, given with
  | n :: r, g :: t => (if g =? 0 then acc else g) :: c_order (acc * Z.of_nat n) r t
  | _, _ => []
  end.
Definition array_strides (f : field) : list Z := c_order 1 (sizes f) [fsx f; fsy f; fsz f; fsw f].
Definition int_strides (f : field) : Prop := Forall (fun s => - 2 ^ 31 <= s < 2 ^ 31) (array_strides f).

Lemma int32_id v : - 2 ^ 31 <= v < 2 ^ 31 -> int32 v = v.
Proof.
  intros H. unfold int32. change (2 ^ 32) with 4294967296. change (2 ^ 31) with 2147483648 in *. cbv zeta.
  destruct (Z.ltb_spec (v mod 4294967296) 2147483648); lia.
Qed.
Lemma default_stride g v : - 2 ^ 31 <= (if g =? 0 then v else g) < 2 ^ 31 ->
  (if g =? 0 then int32 v else g) = (if g =? 0 then v else g).
Proof. destruct (g =? 0); [apply int32_id|reflexivity]. Qed.
Lemma steps_strides f : int_strides f -> steps f = array_strides f.
Proof.
  unfold int_strides, array_strides, steps, stride_x, stride_y, stride_z, stride_w.
  destruct (sizes_cases f) as [H|[H|[H|[H|H]]]]; destruct H as (D & -> & _); rewrite D; cbn [firstn c_order]; intros H; try reflexivity;
    repeat match goal with H : Forall _ (_ :: _) |- _ => apply Forall_cons_iff in H as [? H] end; cbv beta in *;
    rewrite ?Z.mul_1_l in *; rewrite ?default_stride by assumption; reflexivity.
Qed.

(** the blocks of an array, handed to a block coder one after the other *)
Fixpoint feed {A S} (enc : S -> list A -> option S) (s : S) (bs : list (list A)) : option S :=
  match bs with [] => Some s | b :: r => match enc s b with Some s => feed enc s r | None => None end end.
Definition array_blocks {A} (zero : A) (m : list A) (base : Z) (ns : list nat) (ss : list Z) : list (list A) :=
  map (array_block zero m base ns ss) (seq 0 (blocks_in ns)).

Lemma for_feed {A S} (enc : S -> list A -> option S) (g : nat -> list A) n i s :
  for_ n i (fun b s => enc s (g b)) s = feed enc s (map g (seq i n)).
Proof.
  revert i s. induction n as [|n IH]; intros i s; [reflexivity|]. cbn [for_ seq map feed].
  destruct (enc s (g i)) as [s'|]; [cbn [bind]; apply IH|reflexivity].
Qed.

(** compression with any block coder is: code the blocks of the array in order *)
Theorem C17_compress : forall A (zero : A) enc junk f m s,
  (1 <= zfp_field_dimensionality f)%nat -> int_strides f -> length junk = (4 ^ zfp_field_dimensionality f)%nat ->
  fits m (fdata f) (sizes f) (array_strides f) ->
  compress A zero enc junk f m s = feed enc s (array_blocks zero m (fdata f) (sizes f) (array_strides f)).
Proof.
  intros A zero enc junk f m s HD HI HJ HF. rewrite <- steps_strides in * by exact HI.
  rewrite (compress_blocks A zero enc junk m f HF HJ s HD). apply (for_feed enc).
Qed.
Print Assumptions C17_compress.

(** position i of block b belongs to the array (it is not padding) *)
Definition genuine (ns : list nat) (b i : nat) : Prop :=
  Forall (fun '(n, (k, x)) => 4 * k + x < n)%nat (combine ns (combine (block_at ns b) (position (length ns) i))).

(** every element of an array is at exactly one genuine position of one block *)
Theorem C17_exactly_once : forall ns cs, inside cs ns ->
  let b := block_of ns cs in let i := place_of cs in
  (b < blocks_in ns)%nat /\ (i < 4 ^ length ns)%nat /\ genuine ns b i /\ cell ns b i = cs /\
  forall b' i', (b' < blocks_in ns)%nat -> (i' < 4 ^ length ns)%nat -> genuine ns b' i' -> cell ns b' i' = cs -> b' = b /\ i' = i.
Proof.
  intros ns cs Hc b i. assert (HP : Forall (fun n => 0 < n)%nat ns).
  { clear b i. induction Hc; constructor; [lia|assumption]. }
  pose proof (Forall2_len _ _ _ Hc) as HL. pose proof (place_of_lt cs) as PL. rewrite HL in PL.
  split; [apply block_of_lt; exact Hc|]. split; [exact PL|]. split; [|split; [apply cell_of; exact Hc|]].
  - unfold genuine, b, i. rewrite <- (block_of_digits ns cs _ Hc eq_refl).
    unfold position, place_of. rewrite HL, digits_number.
    + clear - Hc. induction Hc as [|c n cs ns H Hc IH]; cbn [map combine]; constructor; [lia|exact IH].
    + rewrite <- HL. clear. induction cs; constructor; auto. lia.
  - intros b' i' Hb Hi G E. destruct (place_unique ns b' i' HP Hb Hi) as [E1 E2].
    + unfold genuine in G. pose proof (digits_inside _ b' (Forall_blocks ns HP)) as HB. fold (block_at ns b') in HB.
      pose proof (digits_inside _ i' (Forall_four (length ns))) as HI. fold (position (length ns) i') in HI.
      revert G HB HI. generalize (block_at ns b') (position (length ns) i'). clear.
      induction ns as [|n ns IH]; intros bs xs G HB HI; inversion HB; subst; inversion HI; subst; cbn [combine] in *; constructor.
      * exact (Forall_inv G).
      * apply IH; [exact (Forall_inv_tail G)|assumption|assumption].
    + rewrite E in E1, E2. auto.
Qed.
Print Assumptions C17_exactly_once.

(** decompression with any block decoder: decode as many blocks as the array has, store
    every element from its position in its block, change nothing else *)
Theorem C17_decompress : forall A (zero : A) dec f m s qs s',
  (1 <= zfp_field_dimensionality f)%nat -> int_strides f ->
  fits m (fdata f) (sizes f) (array_strides f) -> no_overlap (fdata f) (sizes f) (array_strides f) ->
  decode_seq A dec (blocks_in (sizes f)) s = Some (qs, s') ->
  Forall (fun q => length q = (4 ^ zfp_field_dimensionality f)%nat) qs ->
  exists m', decompress A dec f (m, s) = Some (m', s') /\ length m' = length m /\
    (forall cs, inside cs (sizes f) ->
       at_addr zero m' (addr (fdata f) (array_strides f) cs) = nth (place_of cs) (nth (block_of (sizes f) cs) qs []) zero) /\
    (forall a, 0 <= a -> (forall cs, inside cs (sizes f) -> addr (fdata f) (array_strides f) cs <> a) ->
       at_addr zero m' a = at_addr zero m a).
Proof.
  intros A zero dec f m s qs s' HD HI HF HN HS HQ. rewrite <- steps_strides in * by exact HI.
  apply (decompress_ok A zero dec f m s qs s'); assumption.
Qed.
Print Assumptions C17_decompress.

(** the default strides of an array with 2^31 or more elements do not fit an int: the address of
    an element of a 65536 x 32768 x 2 array is computed 4 G elements too low *)
Theorem C17_default_strides_refuted :
  exists f, fdata f = 0 /\ fsx f = 0 /\ fsy f = 0 /\ fsz f = 0 /\ fsw f = 0 /\
    zfp_field_dimensionality f = 3%nat /\ inside [0; 0; 1]%nat (sizes f) /\
    addr 0 (array_strides f) [0; 0; 1]%nat = 2 ^ 31 /\ addr 0 (steps f) [0; 0; 1]%nat = - 2 ^ 31.
Proof.
  set (a := Z.to_nat 65536). set (b := Z.to_nat 32768).
  assert (Ea : Z.of_nat a = 65536) by (unfold a; rewrite Z2Nat.id; lia).
  assert (Eb : Z.of_nat b = 32768) by (unfold b; rewrite Z2Nat.id; lia).
  exists (mk_field a b 2 0 0 0 0 0 0). clearbody a b.
  assert (D : zfp_field_dimensionality (mk_field a b 2 0 0 0 0 0 0) = 3%nat).
  { unfold zfp_field_dimensionality. cbn [fnx fny fnz fnw]. destruct (Nat.eqb_spec a 0); [lia|]. destruct (Nat.eqb_spec b 0); [lia|]. reflexivity. }
  unfold array_strides, steps, sizes, stride_x, stride_y, stride_z, stride_w. rewrite D. cbn [fnx fny fnz fnw fsx fsy fsz fsw fdata firstn].
  repeat split; [repeat constructor; lia| |].
  - cbn [c_order Z.eqb addr]. rewrite Ea, Eb. reflexivity.
  - cbn [Z.eqb addr]. rewrite Ea, Eb. reflexivity.
Qed.
Print Assumptions C17_default_strides_refuted.

(** *** the integer codec on arrays *)
Definition int_enc (W P d : nat) (minbits maxbits maxprec : Z) (s : stream) (q : list Z) : option stream :=
  option_map snd (encode_block W P d s minbits maxbits maxprec q).
Definition int_dec (W P d : nat) (minbits maxbits maxprec : Z) (s : stream) : stream * option (list Z) :=
  let '(_, s, b) := decode_block W P d s minbits maxbits maxprec in (s, b).

Lemma feed_encode_all W P d minbits maxbits maxprec bs : forall s,
  feed (int_enc W P d minbits maxbits maxprec) s bs = option_map snd (encode_all W P d s minbits maxbits maxprec bs).
Proof.
  induction bs as [|b bs IH]; intros s; [reflexivity|]. cbn [feed encode_all]. unfold int_enc at 1.
  destruct (encode_block W P d s minbits maxbits maxprec b) as [[n s1]|]; [|reflexivity]. cbn [option_map snd].
  rewrite IH. destruct (encode_all W P d s1 minbits maxbits maxprec bs) as [[ns s2]|]; reflexivity.
Qed.
Lemma decode_seq_all W P d minbits maxbits maxprec k : forall s qs ns s',
  decode_all W P d s minbits maxbits maxprec k = (ns, s', map Some qs) ->
  decode_seq Z (int_dec W P d minbits maxbits maxprec) k s = Some (qs, s').
Proof.
  induction k as [|k IH]; intros s qs ns s' E.
  - cbn in E. destruct qs; [|discriminate]. injection E as _ <-. reflexivity.
  - cbn [decode_all decode_seq] in *. unfold int_dec at 1. destruct (decode_block W P d s minbits maxbits maxprec) as [[n s1] b].
    destruct (decode_all W P d s1 minbits maxbits maxprec k) as [[ns1 s2] bs] eqn:E2.
    destruct qs as [|q qs]; [discriminate|]. cbn [map] in E. injection E as _ -> -> ->.
    cbn [bind]. rewrite (IH _ _ _ _ E2). reflexivity.
Qed.

Lemma inv_order_len P us : forall perm r0 r, inv_order P us perm r0 = Some r -> length r = length r0.
Proof.
  induction us as [|u us IH]; intros [|p perm] r0 r E; cbn [inv_order] in E; try discriminate; [injection E as <-; reflexivity|].
  destruct (p <? length r0)%nat; [|discriminate]. apply IH in E. rewrite E. apply upd_length'.
Qed.
Lemma decoded_length W P d s minbits maxbits maxprec n s' q : dims d ->
  decode_block W P d s minbits maxbits maxprec = (n, s', Some q) -> length q = (4 ^ d)%nat.
Proof.
  intros HD E. unfold decode_block in E.
  destruct (if (block_size d <=? 64)%nat then _ else _) as [[c u] s1]. destruct (if _ <? _ then _ else _) as [c' s2].
  injection E as _ _ E. destruct (inv_order P u (perm_of d) (repeat 0 (block_size d))) as [r|] eqn:R; cbn [bind] in E; [|discriminate].
  apply inv_order_len in R. rewrite repeat_length in R. unfold block_size in R.
  apply (inv_along P d r q HD R) in E. revert r R E. generalize (rev (seq 0 d)) as ax.
  induction ax as [|a ax IH]; intros r R E; cbn [along_all] in E; [congruence|].
  destruct E as (t & (_ & T & _) & E). apply (IH t T E).
Qed.
Lemma alone_length W P d words minbits maxbits maxprec b q : dims d ->
  alone W P d words minbits maxbits maxprec b = Some q -> length q = (4 ^ d)%nat.
Proof.
  unfold alone. intros HD E. destruct (encode_block _ _ _ _ _ _ _ _) as [[n s]|]; [|discriminate].
  destruct (decode_block _ _ _ _ _ _ _) as [[n' s'] q'] eqn:D. cbn [snd] in E. subst q'. eapply decoded_length; eassumption.
Qed.

Lemma dim_dims f : (1 <= zfp_field_dimensionality f)%nat -> dims (zfp_field_dimensionality f) /\ length (sizes f) = zfp_field_dimensionality f /\
  Forall (fun n => 0 < n)%nat (sizes f).
Proof.
  intros HD. unfold dims. destruct (sizes_cases f) as [H|[H|[H|[H|H]]]]; destruct H as (D & E & H); rewrite E; rewrite D in *; cbn [length];
    (split; [lia|split; [reflexivity|]]); repeat constructor; tauto.
Qed.

(** the values of the array elements *)
Definition array_bounded (B : Z) (m : list Z) (base : Z) (ns : list nat) (ss : list Z) : Prop :=
  forall cs, inside cs ns -> Z.abs (at_addr 0 m (addr base ss cs)) <= B.

Lemma array_block_ok B m base ns ss b : Forall (fun n => 0 < n)%nat ns -> array_bounded B m base ns ss ->
  length (array_block 0 m base ns ss b) = (4 ^ length ns)%nat /\ bounded B (array_block 0 m base ns ss b).
Proof.
  intros HP HB. unfold array_block. split; [rewrite map_length, seq_length; reflexivity|].
  apply Forall_forall. intros x X. apply in_map_iff in X as (i & <- & _). apply HB. apply cell_inside. exact HP.
Qed.
Lemma array_blocks_ok P m base ns ss : Forall (fun n => 0 < n)%nat ns -> array_bounded (guard_max P) m base ns ss ->
  blocks_ok P (length ns) (array_blocks 0 m base ns ss).
Proof.
  intros HP HB. apply Forall_forall. intros b I. apply in_map_iff in I as (k & <- & _). apply array_block_ok; assumption.
Qed.
Lemma array_blocks_nth m base ns ss b : (b < blocks_in ns)%nat -> nth b (array_blocks 0 m base ns ss) [] = array_block 0 m base ns ss b.
Proof.
  intros H. unfold array_blocks. rewrite (nth_indep _ [] (array_block 0 m base ns ss 0)) by (rewrite map_length, seq_length; exact H).
  rewrite map_nth, seq_nth by exact H. reflexivity.
Qed.

(** compressing an integer array f and decompressing it into an array g of the same shape, but
    with any base address and strides: both succeed inside their buffers, the reader ends where the
    writer did, and every element of g is what its block decodes to when coded alone *)
Theorem C17_int_array : forall W P buf off minbits maxbits maxprec junk f m g mg words (dec : nat -> list Z),
  let d := zfp_field_dimensionality f in
  word_size W -> int_width P -> buffer_ok W buf -> 0 <= maxbits < 2 ^ 31 -> 0 <= maxprec < 2 ^ 31 -> minbits <= maxbits ->
  (1 <= d)%nat -> sizes g = sizes f -> int_strides f -> int_strides g -> length junk = (4 ^ d)%nat ->
  fits m (fdata f) (sizes f) (array_strides f) -> array_bounded (guard_max P) m (fdata f) (sizes f) (array_strides f) ->
  fits mg (fdata g) (sizes g) (array_strides g) -> no_overlap (fdata g) (sizes g) (array_strides g) ->
  (off + blocks_in (sizes f) * Z.to_nat maxbits <= W * length buf)%nat -> (Z.to_nat maxbits <= W * words)%nat ->
  (forall b, (b < blocks_in (sizes f))%nat ->
     alone W P d words minbits maxbits maxprec (array_block 0 m (fdata f) (sizes f) (array_strides f) b) = Some (dec b)) ->
  exists s m' s',
    compress Z 0 (int_enc W P d minbits maxbits maxprec) junk f m (stream_wseek W (stream_open buf) off) = Some s /\
    fault s = false /\ (stream_wtell W s <= off + blocks_in (sizes f) * Z.to_nat maxbits)%nat /\
    decompress Z (int_dec W P d minbits maxbits maxprec) g (mg, stream_rseek W (snd (stream_flush W s)) off) = Some (m', s') /\
    fault s' = false /\ stream_rtell W s' = stream_wtell W s /\ length m' = length mg /\
    (forall cs, inside cs (sizes f) ->
       at_addr 0 m' (addr (fdata g) (array_strides g) cs) = nth (place_of cs) (dec (block_of (sizes f) cs)) 0) /\
    (forall a, 0 <= a -> (forall cs, inside cs (sizes f) -> addr (fdata g) (array_strides g) cs <> a) ->
       at_addr 0 m' a = at_addr 0 mg a).
Proof.
  intros W P buf off minbits maxbits maxprec junk f m g mg words dec d HW0 HP Hb HM HM2 Hmm HD HG If Ig HJ HF HB HFg HNg Hc Hwd Hdec.
  destruct (dim_dims f HD) as (DD & LN & HPos).
  pose proof (array_blocks_ok P m (fdata f) (sizes f) (array_strides f) HPos HB) as BO. rewrite LN in BO. fold d in BO, DD.
  set (bs := array_blocks 0 m (fdata f) (sizes f) (array_strides f)) in *.
  assert (LB : length bs = blocks_in (sizes f)) by (unfold bs, array_blocks; rewrite map_length, seq_length; reflexivity).
  destruct (C13_blocks W P d minbits maxbits maxprec HW0 HP DD HM HM2 buf off bs words Hb BO Hmm Hwd ltac:(rewrite LB; exact Hc))
    as (szs & s & E & F & LS & FS & T & X).
  destruct (decode_all W P d _ minbits maxbits maxprec (length bs)) as [[szs' s'] bs'] eqn:ED. destruct X as (-> & F' & T' & EB).
  set (qs := map dec (seq 0 (blocks_in (sizes f)))).
  assert (EQ : bs' = map Some qs).
  { rewrite EB. unfold bs, array_blocks, qs. rewrite !map_map. apply map_ext_in. intros b I. apply in_seq in I. apply Hdec. lia. }
  rewrite EQ, LB in ED. apply decode_seq_all in ED.
  assert (DG : zfp_field_dimensionality g = d).
  { assert (X : forall h, length (sizes h) = zfp_field_dimensionality h).
    { intros h. destruct (sizes_cases h) as [H|[H|[H|[H|H]]]]; destruct H as (D & -> & _); rewrite D; reflexivity. }
    unfold d. rewrite <- !X, HG. reflexivity. }
  rewrite HG in *.
  destruct (C17_decompress Z 0 (int_dec W P d minbits maxbits maxprec) g mg (stream_rseek W (snd (stream_flush W s)) off) qs s')
    as (m' & E1 & E2 & E3 & E4); rewrite ?HG; auto; [lia| |].
  { rewrite DG. apply Forall_forall. intros q I. apply in_map_iff in I as (b & <- & I). apply in_seq in I.
    eapply alone_length; [exact DD|]. apply (Hdec b). lia. }
  rewrite HG in *. exists s, m', s'. rewrite C17_compress by (auto). fold bs. rewrite feed_encode_all, E. cbn [option_map snd].
  split; [reflexivity|]. split; [exact F|]. split.
  { assert (SB : sum szs <= Z.of_nat (length szs) * maxbits).
    { clear - FS. induction FS as [|x l H FS IH]; [cbn; lia|]. unfold sum in *. cbn [fold_right length]. nia. }
    rewrite LS, LB in SB. nia. }
  conjs; auto; [lia|]. intros cs Hcs. rewrite E3 by exact Hcs. f_equal. unfold qs.
  rewrite (nth_indep _ [] (dec 0%nat)) by (rewrite map_length, seq_length; apply block_of_lt; exact Hcs).
  rewrite map_nth, seq_nth by (apply block_of_lt; exact Hcs). reflexivity.
Qed.
Print Assumptions C17_int_array.

Lemma alone_close W P d words minbits maxbits maxprec b :
  word_size W -> int_width P -> dims d -> length b = (4 ^ d)%nat -> bounded (guard_max P - headroom d) b ->
  0 <= maxbits < 2 ^ 31 -> Z.of_nat P <= maxprec < 2 ^ 31 -> (full_bits P (4 ^ d) <= Z.to_nat maxbits)%nat ->
  minbits <= maxbits -> (Z.to_nat maxbits <= W * words)%nat ->
  exists b', alone W P d words minbits maxbits maxprec b = Some b' /\ close (roundoff d) b b'.
Proof.
  intros HW0 HP HD Lb Fb HM HM2 Hfull Hmm Hwd. pose proof (word_size_range W HW0) as HW.
  destruct (C14_near_lossless W P d (repeat 0 words) 0 minbits maxbits maxprec b) as (n & s & b' & E1 & E2 & E3); auto.
  { apply Forall_forall. intros x X. apply repeat_spec in X. subst x. split; [lia|]. apply Z.pow_pos_nonneg; lia. }
  { rewrite repeat_length. lia. }
  assert (S0 : stream_wseek W (stream_open (repeat 0 words)) 0 = stream_open (repeat 0 words)).
  { unfold stream_wseek. rewrite Nat.mod_0_l, Nat.div_0_l by lia. destruct words; reflexivity. }
  assert (RW : forall s, stream_rewind s = stream_rseek W s 0).
  { intros t. unfold stream_rseek. rewrite Nat.mod_0_l, Nat.div_0_l by lia. destruct t; reflexivity. }
  exists b'. unfold alone. rewrite S0 in E1. rewrite E1, RW. auto.
Qed.
Lemma close_at E a b i : 0 <= E -> close E a b -> Z.abs (nth i a 0 - nth i b 0) <= E.
Proof.
  intros HE H. revert i. induction H as [|x y a b H _ IH]; intros i; [destruct i; cbn; lia|].
  destruct i as [|i]; cbn [nth]; [exact H|apply IH].
Qed.

(** at full precision the integers of a whole array come back within 2, 10, 40, 153 *)
Theorem C17_int_array_near_lossless : forall W P buf off minbits maxbits maxprec junk f m g mg,
  let d := zfp_field_dimensionality f in
  word_size W -> int_width P -> buffer_ok W buf -> 0 <= maxbits < 2 ^ 31 -> Z.of_nat P <= maxprec < 2 ^ 31 -> minbits <= maxbits ->
  (full_bits P (4 ^ d) <= Z.to_nat maxbits)%nat ->
  (1 <= d)%nat -> sizes g = sizes f -> int_strides f -> int_strides g -> length junk = (4 ^ d)%nat ->
  fits m (fdata f) (sizes f) (array_strides f) ->
  array_bounded (guard_max P - headroom d) m (fdata f) (sizes f) (array_strides f) ->
  fits mg (fdata g) (sizes g) (array_strides g) -> no_overlap (fdata g) (sizes g) (array_strides g) ->
  (off + blocks_in (sizes f) * Z.to_nat maxbits <= W * length buf)%nat ->
  exists s m' s',
    compress Z 0 (int_enc W P d minbits maxbits maxprec) junk f m (stream_wseek W (stream_open buf) off) = Some s /\
    decompress Z (int_dec W P d minbits maxbits maxprec) g (mg, stream_rseek W (snd (stream_flush W s)) off) = Some (m', s') /\
    fault s = false /\ fault s' = false /\ stream_rtell W s' = stream_wtell W s /\ length m' = length mg /\
    (forall cs, inside cs (sizes f) ->
       Z.abs (at_addr 0 m (addr (fdata f) (array_strides f) cs) - at_addr 0 m' (addr (fdata g) (array_strides g) cs)) <= roundoff d) /\
    (forall a, 0 <= a -> (forall cs, inside cs (sizes f) -> addr (fdata g) (array_strides g) cs <> a) ->
       at_addr 0 m' a = at_addr 0 mg a).
Proof.
  intros W P buf off minbits maxbits maxprec junk f m g mg d HW0 HP Hb HM HM2 Hmm Hfull HD HG If Ig HJ HF HB HFg HNg Hc.
  destruct (dim_dims f HD) as (DD & LN & HPos). fold d in DD, LN.
  assert (GM : 83 <= guard_max P) by (unfold guard_max; destruct HP as [-> | ->]; vm_compute; discriminate).
  assert (HH : 0 <= headroom d) by (unfold headroom; destruct d as [|[|[|[|]]]]; lia).
  assert (HR : 0 <= roundoff d) by (unfold roundoff; destruct d as [|[|[|[|]]]]; lia).
  set (words := Z.to_nat maxbits). assert (HWd : (Z.to_nat maxbits <= W * words)%nat) by (pose proof (word_size_range W HW0); unfold words; nia).
  set (blk := array_block 0 m (fdata f) (sizes f) (array_strides f)).
  set (dec := fun b => match alone W P d words minbits maxbits maxprec (blk b) with Some q => q | None => [] end).
  assert (BK : forall b, exists q, alone W P d words minbits maxbits maxprec (blk b) = Some q /\ close (roundoff d) (blk b) q).
  { intros b. destruct (array_block_ok (guard_max P - headroom d) m (fdata f) (sizes f) (array_strides f) b HPos HB) as [B1 B2].
    rewrite LN in B1. apply alone_close; auto. }
  destruct (C17_int_array W P buf off minbits maxbits maxprec junk f m g mg words dec) as (s & m' & s' & E1 & F1 & T & E2 & F2 & T2 & L & V & R); auto.
  - lia.
  - intros cs Hcs. specialize (HB cs Hcs). lia.
  - intros b Hbl. fold d. fold (blk b). unfold dec. destruct (BK b) as (q & -> & _). reflexivity.
  - exists s, m', s'. fold d in E1, E2. conjs; auto. intros cs Hcs. rewrite V by exact Hcs.
    set (b := block_of (sizes f) cs). destruct (BK b) as (q & Q1 & Q2). unfold dec. rewrite Q1.
    destruct (C17_exactly_once (sizes f) cs Hcs) as (_ & Hi & _ & C & _). fold b in C.
    pose proof (close_at (roundoff d) (blk b) q (place_of cs) HR Q2) as H.
    unfold blk, array_block in H. revert H.
    rewrite (nth_indep _ 0 ((fun i => at_addr 0 m (addr (fdata f) (array_strides f) (cell (sizes f) b i))) 0%nat)) by (rewrite map_length, seq_length; exact Hi).
    rewrite (map_nth (fun i => at_addr 0 m (addr (fdata f) (array_strides f) (cell (sizes f) b i)))), seq_nth by exact Hi. cbn [Nat.add].
    rewrite C. auto.
Qed.
Print Assumptions C17_int_array_near_lossless.

(** two 5 x 3 arrays of ints, the first with padding between rows, the second transposed *)
Example C17_nonvacuous :
  let f := mk_field 5 3 0 0 0 8 0 0 1 in
  let g := mk_field 5 3 0 0 3 1 0 0 0 in
  let m := map (fun i => Z.of_nat (i * i)) (seq 0 30) in
  let mg := repeat (-1) 17 in
  sizes g = sizes f /\ int_strides f /\ int_strides g /\ blocks_in (sizes f) = 2%nat /\
  fits m (fdata f) (sizes f) (array_strides f) /\ fits mg (fdata g) (sizes g) (array_strides g) /\
  no_overlap (fdata g) (sizes g) (array_strides g) /\
  array_bounded 1000 m (fdata f) (sizes f) (array_strides f) /\
  (full_bits 32 16 <= 2000)%nat /\
  match compress Z 0 (int_enc 64 32 2 0 2000 32) (repeat 0 16) f m (stream_wseek 64 (stream_open (repeat 0 100)) 5) with
  | Some s =>
      match decompress Z (int_dec 64 32 2 0 2000 32) g (mg, stream_rseek 64 (snd (stream_flush 64 s)) 5) with
      | Some (m', s') => stream_rtell 64 s' = stream_wtell 64 s /\ nth 15 m' 0 = -1 /\
                         Z.abs (nth 14 m' 0 - 441) <= 10
      | None => False
      end
  | None => False
  end.
Proof.
  cbv zeta. split; [reflexivity|]. split; [repeat constructor; vm_compute; discriminate|]. split; [repeat constructor; vm_compute; discriminate|].
  split; [reflexivity|].
  assert (IN : forall cs, inside cs [5; 3]%nat -> exists x y, cs = [x; y] /\ (x < 5)%nat /\ (y < 3)%nat).
  { intros cs H. inversion H as [|x ? ? ? Hx H1]; subst. inversion H1 as [|y ? ? ? Hy H2]; subst. inversion H2; subst. eauto. }
  split; [|split; [|split; [|split; [|split; [apply Nat.leb_le; vm_compute; reflexivity|]]]]].
  - intros cs H. change (sizes _) with [5; 3]%nat in H. apply IN in H as (x & y & -> & Hx & Hy).
    change (array_strides _) with [1; 8]. cbn [addr length map seq fdata]. lia.
  - intros cs H. change (sizes _) with [5; 3]%nat in H. apply IN in H as (x & y & -> & Hx & Hy).
    change (array_strides _) with [3; 1]. cbn [addr length repeat fdata]. lia.
  - intros cs ds H G. change (sizes _) with [5; 3]%nat in H, G. apply IN in H as (x & y & -> & Hx & Hy). apply IN in G as (x' & y' & -> & Hx' & Hy').
    change (array_strides _) with [3; 1]. cbn [addr fdata]. intros E. assert (x = x' /\ y = y') as [-> ->] by lia. reflexivity.
  - intros cs H. change (sizes _) with [5; 3]%nat in H. apply IN in H as (x & y & -> & Hx & Hy).
    change (array_strides _) with [1; 8]. unfold at_addr. cbn [addr fdata].
    do 5 (destruct x as [|x]; [do 3 (destruct y as [|y]; [vm_compute; discriminate|]); lia|]). lia.
  - vm_compute. repeat split; discriminate.
Qed.

(** ** C22 *)
(** chunk boundaries never give a chunk more than its rounded-up share *)
Lemma chunk_share N chunks c : (0 < chunks)%nat -> (chunk_offset N chunks (c + 1) - chunk_offset N chunks c <= (N + chunks - 1) / chunks)%nat.
Proof.
  intros H. unfold chunk_offset. replace (N * (c + 1))%nat with (N * c + N)%nat by lia.
  assert (E : ((N * c + N) / chunks <= N * c / chunks + (N + chunks - 1) / chunks)%nat).
  { rewrite Nat.add_comm. set (x := (N * c)%nat). rewrite (Nat.div_mod x chunks) at 1 by lia.
    rewrite Nat.add_assoc. replace (N + chunks * (x / chunks) + x mod chunks)%nat with ((N + x mod chunks) + (x / chunks) * chunks)%nat by nia.
    rewrite Nat.div_add by lia. pose proof (Nat.mod_upper_bound x chunks ltac:(lia)).
    assert ((N + x mod chunks) / chunks <= (N + chunks - 1) / chunks)%nat by (apply Nat.div_le_mono; lia). lia. }
  lia.
Qed.

Section C22.
Variables (W P : nat) (minbits maxbits maxprec : Z).
Hypothesis HW0 : word_size W.
Hypothesis HP : int_width P.
Hypothesis HM : 0 <= maxbits < 2 ^ 31.
Hypothesis HM2 : 0 <= maxprec < 2 ^ 31.
Hypothesis Hmm : minbits <= maxbits.

Let bcode (d : nat) (b : list Z) : list bool :=
  block_bits P minbits maxbits maxprec
    match fwd_xform P d b with Some c => map (fun p => int2uint P (nth p c 0)) (perm_of d) | None => [] end.
Let bok (d : nat) (b : list Z) : Prop := length b = (4 ^ d)%nat /\ bounded (guard_max P) b.

Lemma int_appends d : dims d -> appends W (int_enc W P d minbits maxbits maxprec) (bcode d) (bok d).
Proof.
  intros HD s L q Hw [Lq Bq] Hc. pose proof (word_size_range W HW0) as HW.
  destruct (coeffs_spec P d minbits maxbits maxprec HP HD q Lq Bq) as (c & X1 & X2 & X3 & X4 & _).
  unfold int_enc. rewrite (encode_block_put W HW P d minbits maxbits maxprec HD HM HM2 s L q c _ Hw X1 X2 X3 Hc). reflexivity.
Qed.
Lemma bcode_length d b : dims d -> bok d b -> Z.max 0 minbits <= Z.of_nat (length (bcode d b)) <= maxbits.
Proof.
  intros HD [Lb Bb]. destruct (coeffs_spec P d minbits maxbits maxprec HP HD b Lb Bb) as (c & X1 & X2 & X3 & X4 & _).
  pose proof (bits_of_length P d minbits maxbits maxprec b Lb Bb : Z.of_nat (length (bcode d b)) = _) as E.
  destruct (code_length P d maxbits maxprec _ X3). lia.
Qed.

(** C22: for every number of chunks and every complete schedule of the workers, parallel
    compression appends to the stream exactly what serial compression appends: the streams are
    equal as a whole (buffer contents, position, accumulator).  Excluded: fixed rate in whole
    words on a stream that already holds whole words, see C22_second_array_refuted. *)
Theorem C22_parallel_is_serial : forall buf off junk f m chunks bufs sched,
  let d := zfp_field_dimensionality f in
  let N := blocks_in (sizes f) in
  let dst := stream_wseek W (stream_open buf) off in
  (1 <= d)%nat -> int_strides f -> length junk = (4 ^ d)%nat ->
  fits m (fdata f) (sizes f) (array_strides f) -> array_bounded (guard_max P) m (fdata f) (sizes f) (array_strides f) ->
  buffer_ok W buf -> (off + N * Z.to_nat maxbits <= W * length buf)%nat ->
  (1 <= chunks)%nat -> complete N chunks sched ->
  length bufs = chunks ->
  Forall (fun b => buffer_ok W b /\ ((N + chunks - 1) / chunks * Z.to_nat maxbits <= W * length b)%nat) bufs ->
  (minbits <> maxbits \/ maxbits mod Z.of_nat W <> 0 \/ (off mod W)%nat <> 0%nat \/ off = 0%nat) ->
  exists s, fault s = false /\
    compress Z 0 (int_enc W P d minbits maxbits maxprec) junk f m dst = Some s /\
    compress_par W Z 0 (int_enc W P d minbits maxbits maxprec) junk f m minbits maxbits chunks bufs sched dst = Some s.
Proof.
  intros buf off junk f m chunks bufs sched d N dst HD HI HJ HF HB Hb Hc HC HS LB FB HX.
  pose proof (word_size_range W HW0) as HW. destruct (dim_dims f HD) as (DD & LN & HPos). fold d in DD, LN.
  rewrite <- steps_strides in * by exact HI.
  set (blk := array_block 0 m (fdata f) (sizes f) (steps f)).
  assert (OK : forall b, (b < N)%nat -> bok d (blk b)).
  { intros b _. unfold bok. rewrite <- LN. apply array_block_ok; assumption. }
  pose proof (int_appends d DD) as HA.
  destruct (start_wat W buf off HW0 Hb ltac:(nia)) as (Hw & L0 & Hcap). fold dst in Hw, L0, Hcap.
  assert (LEN : forall n b, (b + n <= N)%nat -> (length (bits_from Z 0%Z (bcode d) f m b n) <= n * Z.to_nat maxbits)%nat).
  { induction n as [|n IH]; intros b Hn; [cbn; lia|]. unfold bits_from in *. cbn [seq map concat]. rewrite app_length.
    specialize (IH (S b) ltac:(lia)). pose proof (bcode_length d (blk b) DD (OK b ltac:(lia))) as H. fold (blk b). lia. }
  pose proof (LEN N 0%nat ltac:(lia)) as LN0.
  assert (SER : compress Z 0 (int_enc W P d minbits maxbits maxprec) junk f m dst = Some (put W dst (bits_from Z 0%Z (bcode d) f m 0 N))).
  { apply (compress_put W HW Z 0 _ junk (bcode d) (bok d) HA f m HF HJ HD OK dst _ Hw). fold N. lia. }
  exists (put W dst (bits_from Z 0%Z (bcode d) f m 0 N)). split; [|split; [exact SER|]].
  { destruct (put_wrote W HW dst _ (bits_from Z 0%Z (bcode d) f m 0 N) Hw ltac:(lia)) as (_ & _ & Hw'). apply Hw'. }
  unfold compress_par. destruct (must_copy W minbits maxbits dst) eqn:MC.
  - apply (par_copy W HW Z 0 _ junk (bcode d) (bok d) HA f m HF HJ HD OK chunks HC bufs) with (L := firstn off (membits W buf)); [|exact HS|exact Hw|fold N; lia].
    intros c Hcc. rewrite Forall_forall in FB. destruct (FB (nth c bufs [])) as [B1 B2]; [apply nth_In; lia|]. split; [exact B1|].
    fold N. pose proof (chunk_share N chunks c HC) as CS. pose proof (offset_mono N chunks (c + 1) chunks HC ltac:(lia)) as LO.
    rewrite (offset_last N chunks HC) in LO.
    pose proof (offset_mono N chunks c (c + 1) HC ltac:(lia)).
    specialize (LEN (chunk_offset N chunks (c + 1) - chunk_offset N chunks c)%nat (chunk_offset N chunks c) ltac:(lia)).
    exact (Nat.le_trans _ _ _ LEN (Nat.le_trans _ _ _ (Nat.mul_le_mono_r _ _ _ CS) B2)).
  - unfold must_copy in MC. apply orb_false_iff in MC as [MC M3]. apply orb_false_iff in MC as [M1 M2].
    apply negb_false_iff in M1, M2, M3. apply Z.eqb_eq in M1, M2. apply Nat.eqb_eq in M3.
    rewrite (wat_tell W HW _ _ Hw), L0 in M3.
    assert (off = 0%nat) as -> by (destruct HX as [H|[H|[H|H]]]; congruence).
    assert (ED : dst = stream_open buf).
    { unfold dst, stream_wseek. rewrite Nat.mod_0_l, Nat.div_0_l by lia. destruct buf; reflexivity. }
    rewrite ED. assert (EK : maxbits = Z.of_nat (Z.to_nat (maxbits / Z.of_nat W) * W)).
    { rewrite Nat2Z.inj_mul, Z2Nat.id by (apply Z.div_pos; lia). pose proof (Z.div_mod maxbits (Z.of_nat W) ltac:(lia)). lia. }
    apply (par_shared W HW Z 0 _ junk (bcode d) (bok d) HA f m HF HJ HD OK chunks HC (Z.to_nat (maxbits / Z.of_nat W)) maxbits EK); auto.
    + intros b Hb'. fold N in Hb'. pose proof (bcode_length d (blk b) DD (OK b Hb')) as H. fold (blk b). lia.
    + fold N. nia.
Qed.
End C22.
Print Assumptions C22_parallel_is_serial.

(** the number of chunks compress_omp chooses, from an explicit chunk size or one chunk per thread *)
Theorem C22_chunk_count : forall size blocks threads, (1 <= blocks)%nat -> (1 <= threads)%nat ->
  (1 <= chunk_count size blocks threads <= blocks)%nat /\
  (size = 0%nat -> chunk_count size blocks threads = Nat.min threads blocks) /\
  ((1 <= size)%nat -> forall c, (c < chunk_count size blocks threads)%nat ->
     (chunk_offset blocks (chunk_count size blocks threads) (c + 1) - chunk_offset blocks (chunk_count size blocks threads) c <= size)%nat).
Proof.
  intros size blocks threads HB HT. unfold chunk_count. destruct (Nat.eqb_spec size 0) as [->|N].
  - split; [lia|]. split; [reflexivity|]. lia.
  - assert (K : (1 <= (blocks + size - 1) / size <= blocks)%nat).
    { split; [apply Nat.div_le_lower_bound; lia|]. apply Nat.div_le_upper_bound; nia. }
    rewrite Nat.min_l by lia. split; [exact K|]. split; [lia|]. intros _ c Hc.
    etransitivity; [apply chunk_share; exact (proj1 K)|]. set (k := ((blocks + size - 1) / size)%nat) in *.
    assert (blocks <= k * size)%nat.
    { unfold k. pose proof (Nat.div_mod (blocks + size - 1) size ltac:(lia)). pose proof (Nat.mod_upper_bound (blocks + size - 1) size ltac:(lia)). nia. }
    assert ((blocks + k - 1) / k < size + 1)%nat by (apply Nat.div_lt_upper_bound; nia). lia.
Qed.
Print Assumptions C22_chunk_count.

(** 9 x 5 ints, 6 blocks, 3 chunks, an interleaved schedule; variable and fixed rate *)
Example C22_nonvacuous :
  let f := mk_field 9 5 0 0 0 0 0 0 0 in
  let m := map (fun i => Z.of_nat (i * 37 mod 101)) (seq 0 45) in
  let sched := [2; 0; 1; 1; 0; 2]%nat in
  let bufs := repeat (repeat 77 10) 3 in
  complete (blocks_in (sizes f)) 3 sched /\ (6 * 256 <= 64 * 30)%nat /\
  (let dst := stream_wseek 64 (stream_open (repeat 99 30)) 5 in
   compress_par 64 Z 0 (int_enc 64 32 2 10 256 32) (repeat 0 16) f m 10 256 3 bufs sched dst =
   compress Z 0 (int_enc 64 32 2 10 256 32) (repeat 0 16) f m dst /\
   compress Z 0 (int_enc 64 32 2 10 256 32) (repeat 0 16) f m dst <> None) /\
  (let dst := stream_open (repeat 99 30) in
   must_copy 64 128 128 dst = false /\
   compress_par 64 Z 0 (int_enc 64 32 2 128 128 32) (repeat 0 16) f m 128 128 3 bufs sched dst =
   compress Z 0 (int_enc 64 32 2 128 128 32) (repeat 0 16) f m dst /\
   compress Z 0 (int_enc 64 32 2 128 128 32) (repeat 0 16) f m dst <> None).
Proof.
  cbv zeta. split; [|split; [lia|]].
  - split; [repeat constructor; lia|]. intros c Hc. destruct c as [|[|[|c]]]; [vm_compute; reflexivity..|lia].
  - split; [split|split; [|split]]; vm_compute; try reflexivity; discriminate.
Qed.

(** fixed rate in whole words, second array appended to the same stream: the chunk streams write
    directly into the caller's buffer, but compress_finish_par takes them for private copies and
    frees them.  Serial compression of the same array succeeds. *)
Theorem C22_second_array_refuted :
  exists f m sched dst s,
    complete (blocks_in (sizes f)) 1 sched /\ fault dst = false /\ stream_wtell 64 dst = 64%nat /\
    compress Z 0 (int_enc 64 32 1 64 64 32) (repeat 0 4) f m dst = Some s /\ fault s = false /\
    compress_par 64 Z 0 (int_enc 64 32 1 64 64 32) (repeat 0 4) f m 64 64 1 [repeat 0 10] sched dst = None.
Proof.
  exists (mk_field 8 0 0 0 0 0 0 0 0), [1; 2; 3; 4; 5; 6; 7; 8], [0; 0]%nat, (stream_wseek 64 (stream_open (repeat 0 10)) 64).
  eexists. split; [|split; [|split; [|split; [vm_compute; reflexivity|split; vm_compute; reflexivity]]]].
  - split; [repeat constructor|]. intros c Hc. destruct c; [vm_compute; reflexivity|lia].
  - reflexivity.
  - vm_compute. reflexivity.
Qed.
Print Assumptions C22_second_array_refuted.
