(** Arrays as sequences of blocks. *)
From Coq Require Import ZArith List Bool Arith Lia ZifyNat.
From Verif Require Import ListAux Bitstream ZfpXform ZfpArray ArraySpec XformProofs ArrayProofs ArrayProofs2.
Import ListNotations.
Local Open Scope Z_scope.
Ltac Zify.zify_post_hook ::= Z.to_euclidean_division_equations.

Lemma Forall2_len {A B} (R : A -> B -> Prop) l k : Forall2 R l k -> length l = length k.
Proof. induction 1; cbn; congruence. Qed.

(** ** numbers and digits *)
Lemma number_digits ns k : Forall (fun n => 0 < n)%nat ns -> (k < fold_right Nat.mul 1 ns)%nat -> number ns (digits ns k) = k.
Proof.
  revert k. induction ns as [|n ns IH]; intros k HP Hk; cbn in *; [lia|].
  inversion HP; subst. rewrite IH; [|assumption|apply Nat.div_lt_upper_bound; lia].
  pose proof (Nat.div_mod k n ltac:(lia)). lia.
Qed.
Lemma digits_number ns cs : inside cs ns -> digits ns (number ns cs) = cs.
Proof.
  intros H. induction H as [|c n cs ns Hc HF IH]; [reflexivity|]. cbn [number digits].
  rewrite (Nat.mul_comm n), Nat.mod_add, Nat.div_add, Nat.mod_small, Nat.div_small by lia. cbn [Nat.add]. rewrite IH. reflexivity.
Qed.
Lemma number_lt ns cs : inside cs ns -> (number ns cs < fold_right Nat.mul 1 ns)%nat.
Proof. intros H. induction H as [|c n cs ns Hc HF IH]; cbn; [lia|]. nia. Qed.
Lemma digits_inside ns k : Forall (fun n => 0 < n)%nat ns -> inside (digits ns k) ns.
Proof.
  intros H. revert k. induction H as [|n ns Hn HF IH]; intros k; cbn [digits]; constructor; [apply Nat.mod_upper_bound; lia|apply IH].
Qed.

Lemma blocks_along_pos n : (0 < n)%nat -> (0 < blocks_along n)%nat.
Proof. unfold blocks_along. lia. Qed.
Lemma Forall_blocks ns : Forall (fun n => 0 < n)%nat ns -> Forall (fun n => 0 < n)%nat (map blocks_along ns).
Proof. induction 1; constructor; auto using blocks_along_pos. Qed.
Lemma Forall_four d : Forall (fun n => 0 < n)%nat (repeat 4%nat d).
Proof. induction d; constructor; auto; lia. Qed.
Lemma prod_four d : fold_right Nat.mul 1%nat (repeat 4%nat d) = (4 ^ d)%nat.
Proof. induction d as [|d IH]; [reflexivity|]. cbn [repeat fold_right]. rewrite IH. reflexivity. Qed.

Lemma pad4_lt n i : (0 < n)%nat -> (pad4 n i < n)%nat.
Proof. intros H. unfold pad4. destruct (Nat.ltb_spec i n); [lia|]. destruct (i =? 3)%nat; lia. Qed.
Lemma pad4_id n i : (i < n)%nat -> pad4 n i = i.
Proof. intros H. unfold pad4. destruct (Nat.ltb_spec i n); lia. Qed.

Lemma axis_lt n k x : (k < blocks_along n)%nat -> (4 * k + pad4 (Nat.min (n - 4 * k) 4) x < n)%nat.
Proof. unfold blocks_along. intros H. pose proof (pad4_lt (Nat.min (n - 4 * k) 4) x). lia. Qed.

Lemma cell_inside ns b i : Forall (fun n => 0 < n)%nat ns -> inside (cell ns b i) ns.
Proof.
  intros H. unfold cell, block_at, position.
  pose proof (digits_inside _ b (Forall_blocks ns H)) as HB.
  pose proof (digits_inside _ i (Forall_four (length ns))) as HI.
  revert HB HI. generalize (digits (map blocks_along ns) b) (digits (repeat 4%nat (length ns)) i).
  induction H as [|n ns Hn HF IH]; intros bs xs HB HI; cbn in *.
  - constructor.
  - inversion HB; subst. inversion HI; subst. cbn. constructor; [|apply IH; assumption].
    apply axis_lt. assumption.
Qed.

(** every element is at its place in its block *)
Lemma cell_of ns cs : inside cs ns -> cell ns (block_of ns cs) (place_of cs) = cs.
Proof.
  intros H. unfold cell, block_at, position, block_of, place_of.
  rewrite digits_number.
  2:{ induction H as [|c n cs ns Hc HF IH]; constructor; auto. unfold blocks_along. lia. }
  assert (EL : length ns = length cs) by (symmetry; apply (Forall2_len _ _ _ H)). rewrite EL.
  rewrite digits_number.
  2:{ clear. induction cs; constructor; auto. lia. }
  clear EL. induction H as [|c n cs ns Hc HF IH]; [reflexivity|]. cbn [map3 combine map]. f_equal; [|exact IH].
  rewrite pad4_id by lia. lia.
Qed.
Lemma block_of_lt ns cs : inside cs ns -> (block_of ns cs < blocks_in ns)%nat.
Proof.
  intros H. apply number_lt. induction H as [|c n cs ns Hc HF IH]; constructor; auto. unfold blocks_along. lia.
Qed.
Lemma place_of_lt cs : (place_of cs < 4 ^ length cs)%nat.
Proof. unfold place_of. rewrite <- prod_four. apply number_lt. induction cs; constructor; auto. lia. Qed.

(** and at no other place that is not padding *)
Lemma place_unique ns b i : Forall (fun n => 0 < n)%nat ns -> (b < blocks_in ns)%nat -> (i < 4 ^ length ns)%nat ->
  Forall2 (fun x '(n, k) => (4 * k + x < n)%nat) (position (length ns) i) (combine ns (block_at ns b)) ->
  block_of ns (cell ns b i) = b /\ place_of (cell ns b i) = i.
Proof.
  intros HP Hb Hi HF.
  assert (C : inside (cell ns b i) ns) by (apply cell_inside; exact HP).
  assert (Lc : length (cell ns b i) = length ns) by (apply (Forall2_len _ _ _ C)).
  unfold block_of, place_of. rewrite Lc.
  assert (map (fun c => c / 4)%nat (cell ns b i) = block_at ns b /\ map (fun c => c mod 4)%nat (cell ns b i) = position (length ns) i) as [E1 E2].
  { unfold cell. pose proof (digits_inside _ b (Forall_blocks ns HP)) as HB. fold (block_at ns b) in HB.
    pose proof (digits_inside _ i (Forall_four (length ns))) as HI. fold (position (length ns) i) in HI.
    revert HF HB HI. generalize (block_at ns b) (position (length ns) i). clear.
    induction ns as [|n ns IH]; intros bs xs HF HB HI; inversion HB; subst; inversion HI; subst; [split; reflexivity|].
    cbn [combine] in HF. inversion HF; subst. cbn [map3 combine map].
    destruct (IH _ _ H8 H3 H5) as [F1 F2]. unfold map3 in F1, F2. rewrite pad4_id by lia.
    rewrite F1, F2. split; f_equal; lia. }
  rewrite E1, E2. unfold block_at, position. split; apply number_digits.
  - apply Forall_blocks. exact HP.
  - exact Hb.
  - apply Forall_four.
  - rewrite prod_four. exact Hi.
Qed.

(** the shape of a field *)
Definition sizes (f : field) : list nat := firstn (zfp_field_dimensionality f) [fnx f; fny f; fnz f; fnw f].
Definition steps (f : field) : list Z := firstn (zfp_field_dimensionality f) [stride_x f; stride_y f; stride_z f; stride_w f].

Lemma sizes_cases f :
  (zfp_field_dimensionality f = 0%nat /\ sizes f = [] /\ steps f = []) \/
  (zfp_field_dimensionality f = 1%nat /\ sizes f = [fnx f] /\ steps f = [stride_x f] /\ (0 < fnx f)%nat) \/
  (zfp_field_dimensionality f = 2%nat /\ sizes f = [fnx f; fny f] /\ steps f = [stride_x f; stride_y f] /\ (0 < fnx f)%nat /\ (0 < fny f)%nat) \/
  (zfp_field_dimensionality f = 3%nat /\ sizes f = [fnx f; fny f; fnz f] /\ steps f = [stride_x f; stride_y f; stride_z f] /\
    (0 < fnx f)%nat /\ (0 < fny f)%nat /\ (0 < fnz f)%nat) \/
  (zfp_field_dimensionality f = 4%nat /\ sizes f = [fnx f; fny f; fnz f; fnw f] /\ steps f = [stride_x f; stride_y f; stride_z f; stride_w f] /\
    (0 < fnx f)%nat /\ (0 < fny f)%nat /\ (0 < fnz f)%nat /\ (0 < fnw f)%nat).
Proof.
  unfold sizes, steps, zfp_field_dimensionality.
  destruct (Nat.eqb_spec (fnx f) 0); [tauto|]. destruct (Nat.eqb_spec (fny f) 0); [right; left; cbn; intuition lia|].
  destruct (Nat.eqb_spec (fnz f) 0); [right; right; left; cbn; intuition lia|].
  destruct (Nat.eqb_spec (fnw f) 0); [right; right; right; left; cbn; intuition lia|].
  right; right; right; right; cbn; intuition lia.
Qed.

Lemma block_count_in f : (1 <= zfp_field_dimensionality f)%nat -> block_count f = blocks_in (sizes f).
Proof.
  intros HD. unfold block_count, blocks_in. destruct (sizes_cases f) as [H|[H|[H|[H|H]]]]; destruct H as (D & E1 & _); rewrite D, E1; cbn; unfold nblk, blocks_along; lia.
Qed.

Section Fit.
Variable A : Type.
Variable m : list A.
Variable f : field.
Hypothesis HF : fits m (fdata f) (sizes f) (steps f).

Lemma fit1 : zfp_field_dimensionality f = 1%nat -> forall x, (x < fnx f)%nat ->
  0 <= fdata f + stride_x f * Z.of_nat x < Z.of_nat (length m).
Proof.
  intros D x Hx. destruct (sizes_cases f) as [H|[H|[H|[H|H]]]]; try lia. destruct H as (_ & E1 & E2 & _).
  specialize (HF [x]). rewrite E1, E2 in HF. apply HF. repeat constructor; assumption.
Qed.
Lemma fit2 : zfp_field_dimensionality f = 2%nat -> forall x y, (x < fnx f)%nat -> (y < fny f)%nat ->
  0 <= fdata f + stride_x f * Z.of_nat x + stride_y f * Z.of_nat y < Z.of_nat (length m).
Proof.
  intros D x y Hx Hy. destruct (sizes_cases f) as [H|[H|[H|[H|H]]]]; try lia. destruct H as (_ & E1 & E2 & _).
  specialize (HF [x; y]). rewrite E1, E2 in HF. apply HF. repeat constructor; assumption.
Qed.
Lemma fit3 : zfp_field_dimensionality f = 3%nat -> forall x y z, (x < fnx f)%nat -> (y < fny f)%nat -> (z < fnz f)%nat ->
  0 <= fdata f + stride_x f * Z.of_nat x + stride_y f * Z.of_nat y + stride_z f * Z.of_nat z < Z.of_nat (length m).
Proof.
  intros D x y z Hx Hy Hz. destruct (sizes_cases f) as [H|[H|[H|[H|H]]]]; try lia. destruct H as (_ & E1 & E2 & _).
  specialize (HF [x; y; z]). rewrite E1, E2 in HF. apply HF. repeat constructor; assumption.
Qed.
Lemma fit4 : zfp_field_dimensionality f = 4%nat -> forall x y z w, (x < fnx f)%nat -> (y < fny f)%nat -> (z < fnz f)%nat -> (w < fnw f)%nat ->
  0 <= fdata f + stride_x f * Z.of_nat x + stride_y f * Z.of_nat y + stride_z f * Z.of_nat z + stride_w f * Z.of_nat w < Z.of_nat (length m).
Proof.
  intros D x y z w Hx Hy Hz Hw. destruct (sizes_cases f) as [H|[H|[H|[H|H]]]]; try lia. destruct H as (_ & E1 & E2 & _).
  specialize (HF [x; y; z; w]). rewrite E1, E2 in HF. apply HF. repeat constructor; assumption.
Qed.

End Fit.

Lemma strided_sx f : strided f = false -> stride_x f = 1.
Proof. unfold strided, stride_x. destruct (fsx f =? 0); [reflexivity|discriminate]. Qed.

Lemma load_ok A zero m p n : (forall x, (x < n)%nat -> 0 <= p + Z.of_nat x < Z.of_nat (length m)) ->
  load A m p n = Some (map (fun i => at_addr zero m (p + Z.of_nat i)) (seq 0 n)).
Proof.
  revert p. induction n as [|n IH]; intros p H; [reflexivity|]. cbn [load].
  rewrite (rd_some A zero) by (specialize (H 0%nat); lia). cbn [bind].
  rewrite IH by (intros x Hx; specialize (H (S x)); lia). cbn [bind seq map]. do 2 f_equal; [f_equal; lia|].
  rewrite <- seq_shift, map_map. apply map_ext. intros a. f_equal. lia.
Qed.


Section Enc.
Variable A : Type.
Variable zero : A.
Variable enc : stream -> list A -> option stream.
Variable junk : list A.
Variable m : list A.
Variable f : field.
Notation block b := (array_block zero m (fdata f) (sizes f) (steps f) b).
Hypothesis HF : fits m (fdata f) (sizes f) (steps f).

Lemma nblk_eq n : nblk n = blocks_along n. Proof. reflexivity. Qed.

Hypothesis HJ : length junk = (4 ^ zfp_field_dimensionality f)%nat.

Lemma index1 b s : zfp_field_dimensionality f = 1%nat -> (b < blocks_along (fnx f))%nat ->
  encode_at1 A zero enc junk f m (4 * b) s = enc s (block b) /\
  encode_index A zero enc junk f m b s = enc s (block b).
Proof.
  intros D Hb. pose proof (fit1 A m f HF D) as F. destruct (sizes_cases f) as [H|[H|[H|[H|H]]]]; try lia. destruct H as (_ & E1 & E2 & Px).
  rewrite D in HJ. change (4 ^ 1)%nat with 4%nat in HJ.
  set (w := Nat.min (fnx f - 4 * b) 4). assert (1 <= w <= 4)%nat by (unfold blocks_along in Hb; lia).
  assert (B : block b = map (v1 A zero m w (stride_x f) (fdata f + stride_x f * Z.of_nat (4 * b))) (seq 0 4)).
  { unfold array_block. rewrite E1, E2. change (4 ^ length [fnx f])%nat with 4%nat. apply map_ext_in. intros i Hi. apply in_seq in Hi.
    unfold v1. f_equal. cbn [cell block_at position map length repeat digits map3 combine addr]. fold w.
    rewrite (Nat.mod_small b) by lia. rewrite (Nat.mod_small i) by lia. fold w. lia. }
  assert (OK : ok1 A m w (stride_x f) (fdata f + stride_x f * Z.of_nat (4 * b))).
  { intros x Hx. unfold ok_addr. specialize (F (4 * b + x)%nat). lia. }
  assert (S1 : encode_at1 A zero enc junk f m (4 * b) s = enc s (block b)).
  { unfold encode_at1. rewrite B. destruct (Nat.ltb_spec (fnx f - 4 * b) 4).
    - replace (fnx f - 4 * b)%nat with w by lia. rewrite gather_partial1_ok by (auto; lia). reflexivity.
    - assert (w = 4%nat) as W by lia. rewrite W in *. rewrite (gather1_ok A zero) by exact OK. reflexivity. }
  split; [exact S1|]. unfold encode_index. rewrite D.
  destruct (strided f) eqn:ST; [exact S1|]. pose proof (strided_sx f ST) as SX. rewrite SX in *. rewrite B.
  replace (fdata f + 1 * Z.of_nat (4 * b)) with (fdata f + Z.of_nat (4 * b)) in * by lia.
  destruct (Nat.ltb_spec (fnx f - 4 * b) 4).
  - fold w. rewrite gather_partial1_ok by (auto; lia). reflexivity.
  - assert (w = 4%nat) as W by lia. rewrite W. rewrite (load_ok A zero) by (intros; specialize (F (4 * b + x)%nat); lia). cbn [bind].
    apply (f_equal (enc s)). apply map_ext_in. intros i Hi. apply in_seq in Hi. unfold v1. rewrite pad4_id by lia. f_equal. lia.
Qed.

Lemma index2 b s : zfp_field_dimensionality f = 2%nat -> (b < blocks_along (fnx f) * blocks_along (fny f))%nat ->
  encode_index A zero enc junk f m b s = enc s (block b).
Proof.
  intros D Hb. pose proof (fit2 A m f HF D) as F. destruct (sizes_cases f) as [H|[H|[H|[H|H]]]]; try lia. destruct H as (_ & E1 & E2 & Px & Py).
  rewrite D in HJ. change (4 ^ 2)%nat with 16%nat in HJ.
  pose proof (blocks_along_pos _ Px) as Qx. pose proof (blocks_along_pos _ Py) as Qy.
  unfold encode_index. rewrite D. change nblk with blocks_along. set (bx := (b mod blocks_along (fnx f))%nat). set (by_ := (b / blocks_along (fnx f))%nat).
  assert (Bx : (bx < blocks_along (fnx f))%nat) by (apply Nat.mod_upper_bound; lia).
  assert (By : (by_ < blocks_along (fny f))%nat) by (apply Nat.div_lt_upper_bound; lia).
  set (wx := Nat.min (fnx f - 4 * bx) 4). set (wy := Nat.min (fny f - 4 * by_) 4).
  assert (1 <= wx <= 4)%nat by (unfold blocks_along in Bx; lia). assert (1 <= wy <= 4)%nat by (unfold blocks_along in By; lia).
  set (p := fdata f + stride_x f * Z.of_nat (4 * bx) + stride_y f * Z.of_nat (4 * by_)).
  assert (B : block b = map (v2 A zero m wx wy (stride_x f) (stride_y f) p) (seq 0 16)).
  { unfold array_block. rewrite E1, E2. change (4 ^ length [fnx f; fny f])%nat with 16%nat. apply map_ext_in. intros i Hi. apply in_seq in Hi.
    unfold v2, v1. f_equal. cbn [cell block_at position map length repeat digits map3 combine addr].
    fold bx by_. rewrite (Nat.mod_small by_) by lia. fold wx wy. rewrite (Nat.mod_small (i / 4)) by lia. unfold p. lia. }
  assert (OK : ok2 A m wx wy (stride_x f) (stride_y f) p).
  { intros y Hy x Hx. unfold ok_addr. specialize (F (4 * bx + x)%nat (4 * by_ + y)%nat). unfold p. lia. }
  rewrite B. unfold encode_at2. fold wx wy p.
  destruct (Nat.ltb_spec (fnx f - 4 * bx) 4); [|destruct (Nat.ltb_spec (fny f - 4 * by_) 4)]; cbn [orb].
  1,2: rewrite gather_partial2_ok by (auto; lia); reflexivity.
  assert (wx = 4%nat) as W1 by lia. assert (wy = 4%nat) as W2 by lia. rewrite W1, W2 in *. rewrite (gather2_ok A zero) by exact OK. reflexivity.
Qed.

Lemma index3 b s : zfp_field_dimensionality f = 3%nat -> (b < blocks_along (fnx f) * blocks_along (fny f) * blocks_along (fnz f))%nat ->
  encode_index A zero enc junk f m b s = enc s (block b).
Proof.
  intros D Hb. pose proof (fit3 A m f HF D) as F. destruct (sizes_cases f) as [H|[H|[H|[H|H]]]]; try lia. destruct H as (_ & E1 & E2 & Px & Py & Pz).
  rewrite D in HJ. change (4 ^ 3)%nat with 64%nat in HJ.
  pose proof (blocks_along_pos _ Px) as Qx. pose proof (blocks_along_pos _ Py) as Qy. pose proof (blocks_along_pos _ Pz) as Qz.
  unfold encode_index. rewrite D. change nblk with blocks_along. set (bx := (b mod blocks_along (fnx f))%nat).
  set (by_ := (b / blocks_along (fnx f) mod blocks_along (fny f))%nat). set (bz := (b / blocks_along (fnx f) / blocks_along (fny f))%nat).
  assert (Bx : (bx < blocks_along (fnx f))%nat) by (apply Nat.mod_upper_bound; lia).
  assert (By : (by_ < blocks_along (fny f))%nat) by (apply Nat.mod_upper_bound; lia).
  assert (Bz : (bz < blocks_along (fnz f))%nat) by (apply Nat.div_lt_upper_bound; [lia|]; apply Nat.div_lt_upper_bound; lia).
  set (wx := Nat.min (fnx f - 4 * bx) 4). set (wy := Nat.min (fny f - 4 * by_) 4). set (wz := Nat.min (fnz f - 4 * bz) 4).
  assert (1 <= wx <= 4)%nat by (unfold blocks_along in Bx; lia). assert (1 <= wy <= 4)%nat by (unfold blocks_along in By; lia).
  assert (1 <= wz <= 4)%nat by (unfold blocks_along in Bz; lia).
  set (p := fdata f + stride_x f * Z.of_nat (4 * bx) + stride_y f * Z.of_nat (4 * by_) + stride_z f * Z.of_nat (4 * bz)).
  assert (B : block b = map (v3 A zero m wx wy wz (stride_x f) (stride_y f) (stride_z f) p) (seq 0 64)).
  { unfold array_block. rewrite E1, E2. change (4 ^ length [fnx f; fny f; fnz f])%nat with 64%nat. apply map_ext_in. intros i Hi. apply in_seq in Hi.
    unfold v3, v2, v1. f_equal. cbn [cell block_at position map length repeat digits map3 combine addr].
    fold bx by_ bz. rewrite (Nat.mod_small bz) by lia. fold wx wy wz.
    replace (i mod 16 mod 4)%nat with (i mod 4)%nat by lia. replace (i mod 16 / 4)%nat with (i / 4 mod 4)%nat by lia.
    replace (i / 4 / 4 mod 4)%nat with (i / 16)%nat by lia. unfold p. lia. }
  assert (OK : ok3 A m wx wy wz (stride_x f) (stride_y f) (stride_z f) p).
  { intros z Hz y Hy x Hx. unfold ok_addr. specialize (F (4 * bx + x)%nat (4 * by_ + y)%nat (4 * bz + z)%nat). unfold p. lia. }
  rewrite B. unfold encode_at3. fold wx wy wz p.
  destruct (Nat.ltb_spec (fnx f - 4 * bx) 4); [|destruct (Nat.ltb_spec (fny f - 4 * by_) 4); [|destruct (Nat.ltb_spec (fnz f - 4 * bz) 4)]]; cbn [orb].
  1,2,3: rewrite gather_partial3_ok by (auto; lia); reflexivity.
  assert (wx = 4%nat) as W1 by lia. assert (wy = 4%nat) as W2 by lia. assert (wz = 4%nat) as W3 by lia.
  rewrite W1, W2, W3 in *. rewrite (gather3_ok A zero) by exact OK. reflexivity.
Qed.

Lemma index4 b s : zfp_field_dimensionality f = 4%nat ->
  (b < blocks_along (fnx f) * blocks_along (fny f) * blocks_along (fnz f) * blocks_along (fnw f))%nat ->
  encode_index A zero enc junk f m b s = enc s (block b).
Proof.
  intros D Hb. pose proof (fit4 A m f HF D) as F. destruct (sizes_cases f) as [H|[H|[H|[H|H]]]]; try lia. destruct H as (_ & E1 & E2 & Px & Py & Pz & Pw).
  rewrite D in HJ. change (4 ^ 4)%nat with 256%nat in HJ.
  pose proof (blocks_along_pos _ Px) as Qx. pose proof (blocks_along_pos _ Py) as Qy. pose proof (blocks_along_pos _ Pz) as Qz. pose proof (blocks_along_pos _ Pw) as Qw.
  unfold encode_index. rewrite D. change nblk with blocks_along. set (bx := (b mod blocks_along (fnx f))%nat).
  set (by_ := (b / blocks_along (fnx f) mod blocks_along (fny f))%nat). set (bz := (b / blocks_along (fnx f) / blocks_along (fny f) mod blocks_along (fnz f))%nat).
  set (bw := (b / blocks_along (fnx f) / blocks_along (fny f) / blocks_along (fnz f))%nat).
  assert (Bx : (bx < blocks_along (fnx f))%nat) by (apply Nat.mod_upper_bound; lia).
  assert (By : (by_ < blocks_along (fny f))%nat) by (apply Nat.mod_upper_bound; lia).
  assert (Bz : (bz < blocks_along (fnz f))%nat) by (apply Nat.mod_upper_bound; lia).
  assert (Bw : (bw < blocks_along (fnw f))%nat).
  { apply Nat.div_lt_upper_bound; [lia|]; apply Nat.div_lt_upper_bound; [lia|]. apply Nat.div_lt_upper_bound; [lia|]. lia. }
  set (wx := Nat.min (fnx f - 4 * bx) 4). set (wy := Nat.min (fny f - 4 * by_) 4). set (wz := Nat.min (fnz f - 4 * bz) 4).
  set (ww := Nat.min (fnw f - 4 * bw) 4).
  assert (1 <= wx <= 4)%nat by (unfold blocks_along in Bx; lia). assert (1 <= wy <= 4)%nat by (unfold blocks_along in By; lia).
  assert (1 <= wz <= 4)%nat by (unfold blocks_along in Bz; lia). assert (1 <= ww <= 4)%nat by (unfold blocks_along in Bw; lia).
  set (p := fdata f + stride_x f * Z.of_nat (4 * bx) + stride_y f * Z.of_nat (4 * by_) + stride_z f * Z.of_nat (4 * bz) + stride_w f * Z.of_nat (4 * bw)).
  assert (B : block b = map (v4 A zero m wx wy wz ww (stride_x f) (stride_y f) (stride_z f) (stride_w f) p) (seq 0 256)).
  { unfold array_block. rewrite E1, E2. change (4 ^ length [fnx f; fny f; fnz f; fnw f])%nat with 256%nat. apply map_ext_in. intros i Hi. apply in_seq in Hi.
    unfold v4, v3, v2, v1. f_equal. cbn [cell block_at position map length repeat digits map3 combine addr].
    fold bx by_ bz bw. rewrite (Nat.mod_small bw) by lia. fold wx wy wz ww.
    replace (i mod 64 mod 16 mod 4)%nat with (i mod 4)%nat by lia. replace (i mod 64 mod 16 / 4)%nat with (i / 4 mod 4)%nat by lia.
    replace (i mod 64 / 16)%nat with (i / 4 / 4 mod 4)%nat by lia.
    replace (i / 4 / 4 / 4 mod 4)%nat with (i / 64)%nat by lia. unfold p. lia. }
  assert (OK : ok4 A m wx wy wz ww (stride_x f) (stride_y f) (stride_z f) (stride_w f) p).
  { intros w Hw z Hz y Hy x Hx. unfold ok_addr. specialize (F (4 * bx + x)%nat (4 * by_ + y)%nat (4 * bz + z)%nat (4 * bw + w)%nat). unfold p. lia. }
  rewrite B. unfold encode_at4. fold wx wy wz ww p.
  destruct (Nat.ltb_spec (fnx f - 4 * bx) 4); [|destruct (Nat.ltb_spec (fny f - 4 * by_) 4); [|destruct (Nat.ltb_spec (fnz f - 4 * bz) 4);
    [|destruct (Nat.ltb_spec (fnw f - 4 * bw) 4)]]]; cbn [orb].
  1,2,3,4: rewrite gather_partial4_ok by (auto; lia); reflexivity.
  assert (wx = 4%nat) as W1 by lia. assert (wy = 4%nat) as W2 by lia. assert (wz = 4%nat) as W3 by lia. assert (ww = 4%nat) as W4 by lia.
  rewrite W1, W2, W3, W4 in *. rewrite (gather4_ok A zero) by exact OK. reflexivity.
Qed.


Lemma index_ok b s : (1 <= zfp_field_dimensionality f)%nat -> (b < blocks_in (sizes f))%nat ->
  encode_index A zero enc junk f m b s = enc s (block b).
Proof.
  intros HD Hb. rewrite <- block_count_in in Hb by exact HD. unfold block_count in Hb. change nblk with blocks_along in Hb.
  destruct (sizes_cases f) as [H|[H|[H|[H|H]]]]; destruct H as (D & _); rewrite D in Hb; try lia.
  - apply index1; auto.
  - apply index2; auto.
  - apply index3; auto.
  - apply index4; auto.
Qed.

Lemma compress1_full_for k j data s :
  data = fdata f + Z.of_nat (4 * j) -> (4 * (j + k) <= fnx f)%nat -> zfp_field_dimensionality f = 1%nat -> strided f = false ->
  compress1_full A enc k m data s =
    (s <- for_ k j (fun b s => enc s (block b)) s; Some (fdata f + Z.of_nat (4 * (j + k)), s)).
Proof.
  revert j data s. induction k as [|k IH]; intros j data s -> Hk D ST; cbn [compress1_full for_].
  - rewrite Nat.add_0_r. reflexivity.
  - destruct (index1 j s D ltac:(unfold blocks_along; lia)) as [_ I]. unfold encode_index in I. rewrite D, ST in I.
    destruct (Nat.ltb_spec (fnx f - 4 * j) 4); [lia|].
    destruct (load A m (fdata f + Z.of_nat (4 * j)) 4) as [q|] eqn:EL; cbn [bind] in I |- *.
    2:{ rewrite (load_ok A zero) in EL; [discriminate|]. intros x Hx. pose proof (fit1 A m f HF D (4 * j + x)%nat). rewrite (strided_sx f) in * by exact ST. lia. }
    rewrite I. destruct (enc s (block j)) as [s1|]; [|reflexivity]. cbn [bind].
    rewrite (IH (S j)) by (auto; lia). destruct (for_ k (S j) _ s1); [|reflexivity]. cbn [bind]. do 2 f_equal. lia.
Qed.

Lemma compress1_for s : zfp_field_dimensionality f = 1%nat -> strided f = false ->
  compress1 A zero enc junk f m s = for_ (blocks_along (fnx f)) 0 (fun b s => enc s (block b)) s.
Proof.
  intros D ST. unfold compress1. replace (4 * (fnx f / 4) / 4)%nat with (fnx f / 4)%nat by lia.
  rewrite (compress1_full_for _ 0) by (auto; lia). cbn [Nat.add].
  destruct (Nat.ltb_spec (4 * (fnx f / 4)) (fnx f)) as [L|L].
  - replace (blocks_along (fnx f)) with (fnx f / 4 + 1)%nat by (unfold blocks_along; lia). rewrite for_app.
    destruct (for_ (fnx f / 4) 0 _ s) as [s1|]; [|reflexivity]. cbn [bind for_]. rewrite Nat.add_0_l.
    destruct (index1 (fnx f / 4) s1 D ltac:(unfold blocks_along; lia)) as [_ I]. unfold encode_index in I. rewrite D, ST in I.
    destruct (Nat.ltb_spec (fnx f - 4 * (fnx f / 4)) 4); [|lia].
    replace (Nat.min (fnx f - 4 * (fnx f / 4)) 4) with (fnx f - 4 * (fnx f / 4))%nat in I by lia.
    rewrite I. destruct (enc s1 _); reflexivity.
  - replace (blocks_along (fnx f)) with (fnx f / 4)%nat by (unfold blocks_along; lia).
    destruct (for_ (fnx f / 4) 0 _ s); reflexivity.
Qed.

(** the serial compressor encodes the blocks in order *)
Theorem compress_blocks s : (1 <= zfp_field_dimensionality f)%nat ->
  compress A zero enc junk f m s = for_ (blocks_in (sizes f)) 0 (fun b s => enc s (block b)) s.
Proof.
  intros HD. rewrite <- block_count_in by exact HD. unfold compress, block_count. change nblk with blocks_along.
  destruct (sizes_cases f) as [H|H]; [lia|].
  destruct H as [H|[H|[H|H]]]; destruct H as (D & E1 & E2 & HP); rewrite D.
  - destruct (strided f) eqn:ST; [|apply compress1_for; auto].
    unfold compress_strided1. rewrite loop4_for. apply for_ext. intros j t Hj. apply index1; auto. lia.
  - unfold compress_strided2. rewrite loop4_for.
    rewrite (for_ext _ _ _ _ _ (fun _ _ _ => loop4_for _ _ _)). pose proof (blocks_along_pos (fnx f) ltac:(tauto)).
    rewrite (for_nest (blocks_along (fnx f)) (blocks_along (fny f)) (fun x y => encode_at2 A zero enc junk f m (4 * x) (4 * y))) by lia.
    apply for_ext. intros b t Hb. pose proof (index2 b t D ltac:(lia)) as I. unfold encode_index in I. rewrite D in I. exact I.
  - unfold compress_strided3. rewrite loop4_for.
    pose proof (blocks_along_pos (fnx f) ltac:(tauto)). pose proof (blocks_along_pos (fny f) ltac:(tauto)).
    transitivity (for_ (blocks_along (fnz f)) 0 (fun z => for_ (blocks_along (fnx f) * blocks_along (fny f)) 0
       (fun k => encode_at3 A zero enc junk f m (4 * (k mod blocks_along (fnx f))) (4 * (k / blocks_along (fnx f))) (4 * z))) s).
    { apply for_ext. intros z t Hz. rewrite loop4_for. rewrite (for_ext _ _ _ _ _ (fun _ _ _ => loop4_for _ _ _)).
      apply (for_nest (blocks_along (fnx f)) (blocks_along (fny f)) (fun x y => encode_at3 A zero enc junk f m (4 * x) (4 * y) (4 * z))); lia. }
    rewrite (for_nest (blocks_along (fnx f) * blocks_along (fny f)) (blocks_along (fnz f)) (fun k z =>
       encode_at3 A zero enc junk f m (4 * (k mod blocks_along (fnx f))) (4 * (k / blocks_along (fnx f))) (4 * z))) by nia.
    apply for_ext. intros b t Hb. pose proof (index3 b t D ltac:(lia)) as I. unfold encode_index in I. rewrite D in I. change nblk with blocks_along in I.
    rewrite <- I. f_equal; f_equal.
    + rewrite Nat.mod_mul_r by lia. rewrite Nat.mul_comm, Nat.mod_add, Nat.mod_mod by lia. reflexivity.
    + rewrite Nat.mod_mul_r by lia. rewrite (Nat.mul_comm (blocks_along (fnx f)) (_ mod _)), Nat.div_add by lia.
      rewrite (Nat.div_small (b mod _)) by (apply Nat.mod_upper_bound; lia). reflexivity.
    + rewrite Nat.div_div by lia. reflexivity.
  - unfold compress_strided4. rewrite loop4_for.
    pose proof (blocks_along_pos (fnx f) ltac:(tauto)). pose proof (blocks_along_pos (fny f) ltac:(tauto)). pose proof (blocks_along_pos (fnz f) ltac:(tauto)).
    set (nx := blocks_along (fnx f)) in *. set (ny := blocks_along (fny f)) in *. set (nz := blocks_along (fnz f)) in *.
    transitivity (for_ (blocks_along (fnw f)) 0 (fun w => for_ (nx * ny * nz) 0
       (fun k => encode_at4 A zero enc junk f m (4 * (k mod (nx * ny) mod nx)) (4 * (k mod (nx * ny) / nx)) (4 * (k / (nx * ny))) (4 * w))) s).
    { apply for_ext. intros w t Hw. rewrite loop4_for.
      transitivity (for_ nz 0 (fun z => for_ (nx * ny) 0 (fun k => encode_at4 A zero enc junk f m (4 * (k mod nx)) (4 * (k / nx)) (4 * z) (4 * w))) t).
      - apply for_ext. intros z u Hz. rewrite loop4_for. rewrite (for_ext _ _ _ _ _ (fun _ _ _ => loop4_for _ _ _)).
        apply (for_nest nx ny (fun x y => encode_at4 A zero enc junk f m (4 * x) (4 * y) (4 * z) (4 * w))); lia.
      - apply (for_nest (nx * ny) nz (fun k z => encode_at4 A zero enc junk f m (4 * (k mod nx)) (4 * (k / nx)) (4 * z) (4 * w))); nia. }
    rewrite (for_nest (nx * ny * nz) (blocks_along (fnw f)) (fun k w => encode_at4 A zero enc junk f m (4 * (k mod (nx * ny) mod nx)) (4 * (k mod (nx * ny) / nx)) (4 * (k / (nx * ny))) (4 * w))) by nia.
    apply for_ext. intros b t Hb. pose proof (index4 b t D ltac:(lia)) as I. unfold encode_index in I. rewrite D in I. change nblk with blocks_along in I. fold nx ny nz in I.
    rewrite <- I.
    assert (MM : forall a c, (0 < a)%nat -> (0 < c)%nat -> (b mod (a * c) mod a = b mod a)%nat).
    { intros a c Ha Hc. rewrite Nat.mod_mul_r by lia. rewrite Nat.mul_comm, Nat.mod_add, Nat.mod_mod by lia. reflexivity. }
    assert (MD : forall e a c, (0 < a)%nat -> (0 < c)%nat -> (e mod (a * c) / a = e / a mod c)%nat).
    { intros e a c Ha Hc. rewrite Nat.mod_mul_r by lia. rewrite (Nat.mul_comm a (_ mod _)), Nat.div_add by lia.
      rewrite (Nat.div_small (e mod _)) by (apply Nat.mod_upper_bound; lia). reflexivity. }
    f_equal; f_equal.
    + rewrite (MM (nx * ny)%nat nz) by nia. apply MM; lia.
    + rewrite (MM (nx * ny)%nat nz) by nia. apply MD; lia.
    + rewrite (MD b (nx * ny)%nat nz) by nia. rewrite Nat.div_div by lia. reflexivity.
    + rewrite !Nat.div_div by nia. f_equal; lia.
Qed.

(** a worker encodes the blocks of its chunk in order *)
Theorem chunk_blocks chunks c s : (1 <= zfp_field_dimensionality f)%nat -> (0 < chunks)%nat -> (c < chunks)%nat ->
  let bmin := chunk_offset (blocks_in (sizes f)) chunks c in
  let bmax := chunk_offset (blocks_in (sizes f)) chunks (c + 1) in
  encode_chunk A zero enc junk f m chunks c s = for_ (bmax - bmin) bmin (fun b s => enc s (block b)) s.
Proof.
  intros HD Hc Hcc. cbv zeta. unfold encode_chunk. rewrite block_count_in by exact HD. rewrite Nat.add_0_r.
  apply for_ext. intros b t Hb. apply index_ok; [exact HD|].
  assert (chunk_offset (blocks_in (sizes f)) chunks (c + 1) <= blocks_in (sizes f))%nat.
  { unfold chunk_offset. apply Nat.div_le_upper_bound; [lia|]. nia. }
  lia.
Qed.
End Enc.
