(** Blocks of an array as the compressed arrays see them: extents, positions, pointers. *)
From Coq Require Import ZArith List Bool Arith Lia ZifyNat.
From Verif Require Import ListAux Bits Bitstream BitstreamProofs ZfpXform ZfpArray ZfpApi ZfpCache ArraySpec CacheSpec ArrayProofs ArrayProofs2 ArrayProofs3 ArrayProofs4 PropertiesZfpArray.
Import ListNotations.
Local Open Scope Z_scope.
Ltac Zify.zify_post_hook ::= Z.to_euclidean_division_equations.

Definition positive (ns : list nat) : Prop := Forall (fun n => 0 < n)%nat ns.

(** extents of a block *)
Definition extents (ns ks : list nat) : list nat := map2 (fun n k => Nat.min (n - 4 * k) 4) ns ks.
(** the element at offset xs of the block with coordinates ks *)
Definition shift (ks xs : list nat) : list nat := map2 (fun k x => 4 * k + x)%nat ks xs.
(** the first element of a block *)
Definition corner (ks : list nat) : list nat := map (fun k => 4 * k)%nat ks.

Lemma block_at_inside ns b : positive ns -> inside (block_at ns b) (map blocks_along ns).
Proof. intros H. apply digits_inside. apply Forall_blocks. exact H. Qed.

Lemma extents_shape ns ks : inside ks (map blocks_along ns) -> Forall (fun n => 1 <= n <= 4)%nat (extents ns ks) /\ length (extents ns ks) = length ns.
Proof.
  revert ks. induction ns as [|n ns IH]; intros ks H; inversion H; subst; cbn; [auto|].
  match goal with H : Forall2 _ ?l _ |- _ => destruct (IH l H) as [A B] end. split; [constructor; [unfold blocks_along in *; lia|exact A]|]. f_equal. exact B.
Qed.

Lemma shift_inside ns ks xs : inside ks (map blocks_along ns) -> inside xs (extents ns ks) ->
  inside (shift ks xs) ns /\ map (fun c => c / 4)%nat (shift ks xs) = ks /\ map (fun c => c mod 4)%nat (shift ks xs) = xs.
Proof.
  revert ks xs. induction ns as [|n ns IH]; intros ks xs H G; inversion H as [|k kn ks' ? Hk H']; subst; cbn in G; inversion G as [|x wn xs' ? Hx G']; subst.
  - split; [constructor|]. auto.
  - destruct (IH ks' xs' H' G') as (A & B & C). change (shift (k :: ks') (x :: xs')) with ((4 * k + x)%nat :: shift ks' xs'). cbn [map]. split; [constructor; [lia|exact A]|].
    rewrite B, C. split; f_equal; lia.
Qed.

Lemma shift_complete ns cs : inside cs ns -> let ks := map (fun c => c / 4)%nat cs in let xs := map (fun c => c mod 4)%nat cs in
  inside ks (map blocks_along ns) /\ inside xs (extents ns ks) /\ shift ks xs = cs.
Proof.
  intros H. cbn zeta. induction H as [|c n cs ns Hc H (A & B & C)]; [cbn; repeat constructor|]. cbn [map].
  split; [constructor; [unfold blocks_along; lia|exact A]|]. split; [constructor; [lia|exact B]|].
  rewrite <- C at 3. unfold shift, map2. cbn [combine map]. fold (map2 (fun k x => 4 * k + x)%nat).  f_equal. lia.
Qed.

(** the elements of block b *)
Lemma members ns b cs : positive ns -> (b < blocks_in ns)%nat ->
  (inside cs ns /\ block_of ns cs = b <-> exists xs, inside xs (extents ns (block_at ns b)) /\ cs = shift (block_at ns b) xs).
Proof.
  intros HP Hb. pose proof (block_at_inside ns b HP) as HK. split.
  - intros [Hc E]. destruct (shift_complete ns cs Hc) as (A & B & C). rewrite (block_of_digits ns cs b Hc E) in *.
    eexists. split; [exact B|]. symmetry. exact C.
  - intros (xs & Hx & ->). destruct (shift_inside ns _ xs HK Hx) as (A & B & C). split; [exact A|].
    unfold block_of. rewrite B. apply number_digits; [apply Forall_blocks; exact HP|exact Hb].
Qed.

Lemma member_place ns ks xs : inside ks (map blocks_along ns) -> inside xs (extents ns ks) ->
  place_of (shift ks xs) = number (repeat 4%nat (length ns)) xs.
Proof.
  intros HK Hx. destruct (shift_inside ns ks xs HK Hx) as (A & B & C). unfold place_of. rewrite C.
  rewrite (Forall2_len _ _ _ A). reflexivity.
Qed.

Lemma addr_base a b ss cs : addr (a + b) ss cs = a + addr b ss cs.
Proof. revert b cs. induction ss as [|s ss IH]; intros b [|c cs]; cbn; try reflexivity. rewrite <- IH. f_equal. lia. Qed.
Lemma member_addr p ss ks xs : length xs = length ks -> addr p ss (shift ks xs) = addr (addr p ss (corner ks)) ss xs.
Proof.
  revert p ks xs. induction ss as [|s ss IH]; intros p ks xs HL.
  - destruct (shift ks xs), xs; reflexivity.
  - destruct ks as [|k ks], xs as [|x xs]; cbn in HL; try discriminate; [reflexivity|].
    unfold shift, map2, corner in *. cbn [combine map addr].
    replace (p + s * Z.of_nat (4 * k + x)) with (s * Z.of_nat x + (p + s * Z.of_nat (4 * k))) by lia.
    rewrite addr_base. rewrite (IH _ ks xs) by lia.
    rewrite (Z.add_comm (addr _ ss _) (s * Z.of_nat x)). symmetry. apply addr_base.
Qed.

(** positions with padding *)
Lemma cell_shift ns b i : positive ns ->
  cell ns b i = shift (block_at ns b) (map2 pad4 (extents ns (block_at ns b)) (position (length ns) i)).
Proof.
  intros HP. unfold cell, shift, extents, map3, map2. pose proof (block_at_inside ns b HP) as HK.
  pose proof (digits_inside _ i (Forall_four (length ns))) as HI. fold (position (length ns) i) in HI.
  revert HK HI. generalize (block_at ns b) (position (length ns) i). clear.
  induction ns as [|n ns IH]; intros ks xs HK HI; inversion HK; subst; inversion HI; subst; cbn [combine map]; [reflexivity|].
  f_equal. apply IH; assumption.
Qed.
Lemma padded_inside ns b i : positive ns -> inside (map2 pad4 (extents ns (block_at ns b)) (position (length ns) i)) (extents ns (block_at ns b)).
Proof.
  intros HP. destruct (extents_shape ns _ (block_at_inside ns b HP)) as [A B]. unfold map2.
  assert (HL : length (position (length ns) i) = length (extents ns (block_at ns b))).
  { rewrite B. unfold position. pose proof (digits_inside _ i (Forall_four (length ns))) as HI. apply Forall2_len in HI. rewrite repeat_length in HI. exact HI. }
  revert A HL. generalize (extents ns (block_at ns b)) (position (length ns) i). clear.
  intros ws xs A. revert xs. induction A as [|w ws Hw A IH]; intros [|x xs] HL; cbn in *; try discriminate; constructor; [apply pad4_lt; lia|apply IH; lia].
Qed.
Lemma cell_member ns b i : positive ns -> (b < blocks_in ns)%nat -> inside (cell ns b i) ns /\ block_of ns (cell ns b i) = b.
Proof.
  intros HP Hb. rewrite cell_shift by exact HP. apply members; [exact HP|exact Hb|]. eexists. split; [apply padded_inside; exact HP|reflexivity].
Qed.

(** the model's functions on coordinates *)
Lemma blocks_eq ns : (1 <= length ns <= 3)%nat -> blocks ns = blocks_in ns.
Proof. destruct ns as [|a [|b [|c [|]]]]; cbn [length]; intros; try lia; unfold blocks, blocks_in; cbn; change per4 with blocks_along; lia. Qed.
Lemma block_eq ns cs : (1 <= length ns <= 3)%nat -> inside cs ns -> block ns cs = block_of ns cs.
Proof.
  intros HL H. assert (EL : length cs = length ns) by apply (Forall2_len _ _ _ H).
  destruct ns as [|a [|b [|c [|]]]]; cbn [length] in *; try lia; destruct cs as [|x [|y [|z [|]]]]; cbn [length] in *; try lia;
    unfold block, block_of; cbn [map number]; change per4 with blocks_along; lia.
Qed.
Lemma index_eq cs : (1 <= length cs <= 3)%nat -> index cs = place_of cs.
Proof. destruct cs as [|x [|y [|z [|]]]]; cbn [length]; intros; try lia; unfold index, place_of; cbn [map number repeat length]; lia. Qed.
Lemma strides_eq ns : (1 <= length ns <= 3)%nat -> strides ns = contiguous 1 ns.
Proof. destruct ns as [|a [|b [|c [|]]]]; cbn [length]; intros; try lia; unfold strides; cbn [contiguous]; repeat f_equal; lia. Qed.
Lemma unflatten_eq ns i : (1 <= length ns <= 3)%nat -> positive ns -> (i < fold_right Nat.mul 1 ns)%nat -> unflatten ns i = digits ns i.
Proof.
  destruct ns as [|a [|b [|c [|]]]]; cbn [length]; intros HL HP Hi; try lia; unfold unflatten; cbn [digits fold_right] in *;
  repeat match goal with H : positive (_ :: _) |- _ => inversion H; clear H; subst end;
  repeat match goal with H : Forall _ (_ :: _) |- _ => inversion H; clear H; subst end.
  - rewrite Nat.mod_small by lia. reflexivity.
  - rewrite (Nat.mod_small (i / a)) by (apply Nat.div_lt_upper_bound; lia). reflexivity.
  - rewrite (Nat.mod_small (i / a / b)) by (apply Nat.div_lt_upper_bound; [lia|apply Nat.div_lt_upper_bound; lia]). reflexivity.
Qed.

Lemma inside_length cs ns : inside cs ns -> length cs = length ns.
Proof. apply Forall2_len. Qed.

(** contiguous arrays *)
Lemma contiguous_length s ns : length (contiguous s ns) = length ns.
Proof. revert s. induction ns; intros; cbn; auto. Qed.
Lemma contiguous_addr s p ns cs : inside cs ns -> addr p (contiguous s ns) cs = p + s * Z.of_nat (number ns cs).
Proof.
  intros H. revert s p. induction H as [|c n cs ns Hc H IH]; intros s p; cbn [contiguous addr number]; [lia|]. rewrite IH. nia.
Qed.
Lemma contiguous_no_overlap p ns : no_overlap p ns (contiguous 1 ns).
Proof.
  intros cs ds Hc Hd E. rewrite !contiguous_addr in E by assumption. rewrite <- (digits_number ns cs Hc), <- (digits_number ns ds Hd). f_equal. lia.
Qed.

(** ** Shapes *)
Lemma land3 x : Z.land x 3 = x mod 4.
Proof. change 3 with (Z.ones 2). rewrite Z.land_ones by lia. reflexivity. Qed.
Lemma edge_spec n k : (k < blocks_along n)%nat -> 0 <= edge n k < 4 /\ (Z.to_nat (4 - edge n k) = Nat.min (n - 4 * k) 4)%nat.
Proof.
  unfold edge, blocks_along. change per4 with blocks_along. unfold blocks_along, uint. intros H. rewrite land3.
  assert (E : (- Z.of_nat n) mod 2 ^ 32 mod 4 = (- Z.of_nat n) mod 4).
  { rewrite <- Znumtheory.Zmod_div_mod; [reflexivity|lia|lia|]. exists (2 ^ 30). reflexivity. }
  rewrite E. destruct (Nat.eqb_spec k ((n + 3) / 4 - 1)); lia.
Qed.
Lemma nth_rows (f : nat -> nat -> Z) w h b : (b < w * h)%nat ->
  nth b (flat_map (fun j => map (f j) (seq 0 w)) (seq 0 h)) 0 = f (b / w)%nat (b mod w)%nat.
Proof.
  intros Hb. assert (G : forall h0, nth b (flat_map (fun j => map (f j) (seq 0 w)) (seq h0 h)) 0 = f (h0 + b / w)%nat (b mod w)%nat); [|apply (G 0%nat)].
  revert b Hb. induction h as [|h IH]; intros b Hb h0; [lia|]. cbn [seq flat_map].
  destruct (Nat.lt_ge_cases b w) as [L|L].
  - rewrite app_nth1 by (rewrite map_length, seq_length; exact L).
    rewrite (nth_indep _ 0 (f h0 0%nat)) by (rewrite map_length, seq_length; exact L). rewrite map_nth, seq_nth by exact L.
    rewrite Nat.div_small, Nat.mod_small by exact L. f_equal. lia.
  - rewrite app_nth2 by (rewrite map_length, seq_length; exact L). rewrite map_length, seq_length. rewrite IH by lia.
    replace b with ((b - w) + 1 * w)%nat at 3 4 by lia. rewrite Nat.div_add, Nat.mod_add by lia. f_equal. lia.
Qed.
Lemma nth_planes (f : nat -> nat -> nat -> Z) w h e b : (b < w * h * e)%nat ->
  nth b (flat_map (fun k => flat_map (fun j => map (f k j) (seq 0 w)) (seq 0 h)) (seq 0 e)) 0 = f (b / w / h)%nat (b / w mod h)%nat (b mod w)%nat.
Proof.
  intros Hb. assert (0 < w /\ 0 < h)%nat as [Hw Hh] by lia.
  assert (FL : forall k, length (flat_map (fun j => map (f k j) (seq 0 w)) (seq 0 h)) = (w * h)%nat).
  { intros k. generalize 0%nat at 2. clear. induction h as [|h IH]; intros n; cbn; [lia|]. rewrite app_length, map_length, seq_length, IH. lia. }
  assert (G : forall e0, nth b (flat_map (fun k => flat_map (fun j => map (f k j) (seq 0 w)) (seq 0 h)) (seq e0 e)) 0 = f (e0 + b / w / h)%nat (b / w mod h)%nat (b mod w)%nat); [|apply (G 0%nat)].
  revert b Hb. induction e as [|e IH]; intros b Hb e0; [lia|]. cbn [seq flat_map].
  destruct (Nat.lt_ge_cases b (w * h)) as [L|L].
  - rewrite app_nth1 by (rewrite FL; exact L). rewrite nth_rows by exact L.
    assert (b / w < h)%nat by (apply Nat.div_lt_upper_bound; lia).
    rewrite (Nat.div_small (b / w) h), (Nat.mod_small (b / w) h) by lia. f_equal. lia.
  - rewrite app_nth2 by (rewrite FL; exact L). rewrite FL, IH by lia.
    replace b with ((b - w * h) + h * w)%nat at 4 5 6 by lia. rewrite Nat.div_add, Nat.mod_add by lia.
    replace ((b - w * h) / w + h)%nat with ((b - w * h) / w + 1 * h)%nat by lia. rewrite Nat.div_add, Nat.mod_add by lia. f_equal. lia.
Qed.

Lemma widths_cons d e r : 0 <= e < 4 -> widths (S d) (e + 4 * r) = Z.to_nat (4 - e) :: widths d r.
Proof. intros H. cbn [widths]. rewrite land3, Z.shiftr_div_pow2 by lia. change (2 ^ 2) with 4. f_equal; [f_equal; lia|f_equal; lia]. Qed.
Lemma widths1 e : 0 <= e < 4 -> widths 1 e = [Z.to_nat (4 - e)].
Proof. intros. replace e with (e + 4 * 0) at 1 by lia. rewrite widths_cons by lia. reflexivity. Qed.

Definition shape_at (ns : list nat) (b : nat) : Z := match shapes ns with Some l => nth b l 0 | None => 0 end.
Lemma four_cases n k : (k < blocks_along n)%nat -> Z.of_nat n mod 4 = 0 -> Nat.min (n - 4 * k) 4 = 4%nat.
Proof. unfold blocks_along. lia. Qed.
Lemma full1 e m : 0 <= e < 4 -> Z.to_nat (4 - e) = m -> e = 0 -> m = 4%nat.
Proof. lia. Qed.
Lemma zero2 a b : 0 <= a < 4 -> 0 <= b < 4 -> a + 4 * b = 0 -> a = 0 /\ b = 0.
Proof. lia. Qed.
Lemma zero3 a b c : 0 <= a < 4 -> 0 <= b < 4 -> 0 <= c < 4 -> a + 4 * (b + 4 * c) = 0 -> a = 0 /\ b = 0 /\ c = 0.
Proof. lia. Qed.
Lemma shape_at1 nx b : (0 < nx)%nat -> (b < blocks_along nx)%nat ->
  shape_at [nx] b = edge nx b \/ shape_at [nx] b = 0 /\ Z.of_nat nx mod 4 = 0.
Proof.
  intros HP Hb. unfold shape_at, shapes. rewrite land3. change per4 with blocks_along.
  destruct (Z.eqb_spec (Z.of_nat nx mod 4) 0) as [Z0|Z0]; cbn [negb]; [right; auto|left].
  rewrite (nth_indep _ 0 (edge nx 0)) by (rewrite map_length, seq_length; exact Hb). rewrite map_nth, seq_nth by exact Hb. reflexivity.
Qed.
Lemma shape_at2 nx ny b : (b < blocks_along nx * blocks_along ny)%nat ->
  shape_at [nx; ny] b = edge nx (b mod blocks_along nx) + 4 * edge ny (b / blocks_along nx) \/
  shape_at [nx; ny] b = 0 /\ Z.of_nat nx mod 4 = 0 /\ Z.of_nat ny mod 4 = 0.
Proof.
  intros Hb. unfold shape_at, shapes. rewrite Z.land_lor_distr_l, !land3. change per4 with blocks_along.
  destruct (Z.eqb_spec (Z.lor (Z.of_nat nx mod 4) (Z.of_nat ny mod 4)) 0) as [Z0|Z0]; cbn [negb].
  - apply Z.lor_eq_0_iff in Z0. right. split; [reflexivity|exact Z0].
  - left. apply (nth_rows (fun j i => edge nx i + 4 * edge ny j)). exact Hb.
Qed.
Lemma shape_at3 nx ny nz b : (b < blocks_along nx * blocks_along ny * blocks_along nz)%nat ->
  shape_at [nx; ny; nz] b = edge nx (b mod blocks_along nx) + 4 * (edge ny (b / blocks_along nx mod blocks_along ny) + 4 * edge nz (b / blocks_along nx / blocks_along ny)) \/
  shape_at [nx; ny; nz] b = 0 /\ Z.of_nat nx mod 4 = 0 /\ Z.of_nat ny mod 4 = 0 /\ Z.of_nat nz mod 4 = 0.
Proof.
  intros Hb. unfold shape_at, shapes. rewrite !Z.land_lor_distr_l, !land3. change per4 with blocks_along.
  destruct (Z.eqb_spec (Z.lor (Z.lor (Z.of_nat nx mod 4) (Z.of_nat ny mod 4)) (Z.of_nat nz mod 4)) 0) as [Z0|Z0]; cbn [negb].
  - apply Z.lor_eq_0_iff in Z0. destruct Z0 as [Z0 ?]. apply Z.lor_eq_0_iff in Z0. right. split; [reflexivity|]. split; [apply Z0|]. split; [apply Z0|]. assumption.
  - left. apply (nth_planes (fun k j i => edge nx i + 4 * (edge ny j + 4 * edge nz k))). exact Hb.
Qed.
Lemma shape_at_spec ns b : (1 <= length ns <= 3)%nat -> positive ns -> (b < blocks_in ns)%nat ->
  (shape_at ns b = 0 -> Forall (fun n => n = 4%nat) (extents ns (block_at ns b))) /\
  (shape_at ns b <> 0 -> widths (length ns) (shape_at ns b) = extents ns (block_at ns b)).
Proof.
  intros HL HP Hb. pose proof (block_at_inside ns b HP) as HK.
  destruct ns as [|nx [|ny [|nz [|]]]]; cbn [length] in HL; try lia.
  - unfold block_at, blocks_in in *; cbn [map digits fold_right] in *. rewrite Nat.mul_1_r in Hb.
    inversion HK as [|? ? ? ? K1 _]; subst. rewrite (Nat.mod_small b) in * by exact Hb. inversion HP; subst.
    destruct (edge_spec nx b K1) as [E1 E2]. unfold extents, map2. cbn [combine map length].
    destruct (shape_at1 nx b) as [E|[E Z1]]; [assumption..|rewrite E|rewrite E].
    + split; [intros X; repeat constructor; exact (full1 _ _ E1 E2 X)|]. intros _. rewrite widths1 by exact E1. rewrite E2. reflexivity.
    + split; [intros _; repeat constructor; apply four_cases; assumption|congruence].
  - unfold block_at, blocks_in in *; cbn [map digits fold_right] in *. rewrite Nat.mul_1_r in Hb.
    inversion HK as [|? ? ? ? K1 HK2]; subst. inversion HK2 as [|? ? ? ? K2 _]; subst.
    assert (EB : (b / blocks_along nx mod blocks_along ny = b / blocks_along nx)%nat) by (apply Nat.mod_small, Nat.div_lt_upper_bound; clear - Hb; nia).
    rewrite EB in *. destruct (edge_spec nx _ K1) as [E1 E2]. destruct (edge_spec ny _ K2) as [F1 F2]. unfold extents, map2. cbn [combine map length].
    destruct (shape_at2 nx ny b) as [E|[E Z1]]; [assumption..|rewrite E|rewrite E].
    + split; [intros X; apply zero2 in X; [|assumption..]; destruct X as [X1 X2]; constructor; [exact (full1 _ _ E1 E2 X1)|constructor; [exact (full1 _ _ F1 F2 X2)|constructor]]|].
      intros _. rewrite widths_cons, widths1 by assumption. rewrite E2, F2. reflexivity.
    + split; [intros _; repeat (apply Forall_cons; [apply four_cases; tauto|]); apply Forall_nil|congruence].
  - unfold block_at, blocks_in in *; cbn [map digits fold_right] in *. rewrite Nat.mul_1_r, Nat.mul_assoc in Hb.
    inversion HK as [|? ? ? ? K1 HK2]; subst. inversion HK2 as [|? ? ? ? K2 HK3]; subst. inversion HK3 as [|? ? ? ? K3 _]; subst.
    assert (EB : (b / blocks_along nx / blocks_along ny mod blocks_along nz = b / blocks_along nx / blocks_along ny)%nat).
    { apply Nat.mod_small. rewrite Nat.div_div by (clear - Hb; nia). apply Nat.div_lt_upper_bound; clear - Hb; nia. }
    rewrite EB in *. destruct (edge_spec nx _ K1) as [E1 E2]. destruct (edge_spec ny _ K2) as [F1 F2]. destruct (edge_spec nz _ K3) as [G1 G2].
    unfold extents, map2. cbn [combine map length].
    destruct (shape_at3 nx ny nz b) as [E|[E Z1]]; [assumption..|rewrite E|rewrite E].
    + split; [intros X; apply zero3 in X; [|assumption..]; destruct X as (X1 & X2 & X3); constructor; [exact (full1 _ _ E1 E2 X1)|constructor; [exact (full1 _ _ F1 F2 X2)|constructor; [exact (full1 _ _ G1 G2 X3)|constructor]]]|].
      intros _. rewrite !widths_cons, widths1 by assumption. rewrite E2, F2, G2. reflexivity.
    + split; [intros _; repeat (apply Forall_cons; [apply four_cases; tauto|]); apply Forall_nil|congruence].
Qed.
