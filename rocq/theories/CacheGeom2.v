(** Moving blocks between cache lines, arrays in memory and the block coder. *)
From Coq Require Import ZArith List Bool Arith Lia ZifyNat.
From Verif Require Import ListAux Bits Bitstream BitstreamProofs ZfpXform ZfpArray ZfpApi ZfpCache ArraySpec CacheSpec ArrayProofs ArrayProofs2 ArrayProofs3 ArrayProofs4 PropertiesZfpArray CacheGeom.
Import ListNotations.
Local Open Scope Z_scope.

Section Move.
Variable ns : list nat.
Variable b : nat.
Hypothesis HL : (1 <= length ns <= 3)%nat.
Hypothesis HP : positive ns.
Hypothesis Hb : (b < blocks_in ns)%nat.
Variable junk : list Z.
Notation d := (length ns).
Notation ks := (block_at ns b).
Notation ws := (extents ns ks).
Hypothesis HJ : length junk = (4 ^ d)%nat.

Let HK : inside ks (map blocks_along ns) := block_at_inside ns b HP.
Let HW1 : Forall (fun n => 1 <= n <= 4)%nat ws := proj1 (extents_shape ns ks HK).
Let HW2 : length ws = d := proj2 (extents_shape ns ks HK).

Lemma shape_ok ss : length ss = d -> block_shape ws ss.
Proof. intros E. split; [rewrite HW2; lia|]. split; [rewrite HW2; exact E|exact HW1]. Qed.

Lemma full_pad i : Forall (fun n => n = 4%nat) ws -> map2 pad4 ws (position d i) = position d i.
Proof.
  intros F. apply pad_inside. assert (E : ws = repeat 4%nat d).
  { rewrite <- HW2. clear - F. induction F as [|x l -> F IH]; [reflexivity|]. cbn. f_equal. exact IH. }
  rewrite E. apply digits_inside, Forall_four.
Qed.
Lemma cell_place i : place_of (cell ns b i) = number (repeat 4%nat d) (map2 pad4 ws (position d i)).
Proof. rewrite cell_shift by exact HP. apply member_place; [exact HK|apply padded_inside; exact HP]. Qed.

(** ** Cache lines *)
Notation ls := (contiguous 1 (repeat 4%nat d)).
Lemma line_addr xs : inside xs ws -> addr 0 ls xs = Z.of_nat (number (repeat 4%nat d) xs) /\ (number (repeat 4%nat d) xs < 4 ^ d)%nat.
Proof.
  intros H. assert (I : inside xs (repeat 4%nat d)) by (rewrite <- HW2; apply inside_four; assumption).
  rewrite contiguous_addr by exact I. split; [lia|]. rewrite <- prod_four. apply number_lt. exact I.
Qed.
Lemma line_fits (l : list Z) : length l = (4 ^ d)%nat -> fits l 0 ws ls.
Proof. intros E xs H. destruct (line_addr xs H) as [-> X]. rewrite E. lia. Qed.
Lemma line_no_overlap : no_overlap 0 ws ls.
Proof.
  intros cs ds Hc Hd. assert (I : forall xs, inside xs ws -> inside xs (repeat 4%nat d)) by (intros xs H; rewrite <- HW2; apply inside_four; assumption).
  apply (contiguous_no_overlap 0 (repeat 4%nat d)); apply I; assumption.
Qed.

Definition line_block (l : list Z) : list Z := map (fun i => nth (place_of (cell ns b i)) l 0) (seq 0 (4 ^ d)).

Lemma line_block_eq l : map (fun i => at_addr 0 l (addr 0 ls (map2 pad4 ws (position (length ws) i)))) (seq 0 (4 ^ length ws)) = line_block l.
Proof.
  rewrite HW2. unfold line_block. apply map_ext. intros i. rewrite (proj1 (line_addr _ (padded_inside ns b i HP))), cell_place. unfold at_addr. f_equal. lia.
Qed.

Lemma gather_line_ok l : length l = (4 ^ d)%nat -> gather_line junk l d (shape_at ns b) = Some (line_block l).
Proof.
  intros E. destruct (shape_at_spec ns b HL HP Hb) as [S0 S1].
  destruct (C16_gather Z 0 junk l 0 ws ls) as [G1 G2].
  { apply shape_ok. rewrite contiguous_length, repeat_length. reflexivity. }
  { rewrite HW2. exact HJ. }
  { apply line_fits. exact E. }
  rewrite line_block_eq in G1, G2. unfold gather_line. destruct (Z.eqb_spec (shape_at ns b) 0) as [Z0|Z0].
  - rewrite (load_ok Z 0) by lia. f_equal. unfold line_block. apply map_ext_in. intros i Hi. apply in_seq in Hi. rewrite cell_place, full_pad by auto.
    unfold position. rewrite number_digits; [unfold at_addr; f_equal; lia|apply Forall_four|rewrite prod_four; lia].
  - rewrite S1 by exact Z0. rewrite <- G1. unfold gather_partial. pose proof HW2 as HW3. clear - HL HW3.
    destruct ns as [|? [|? [|? [|]]]]; cbn [length] in *; try lia; destruct (extents _ _) as [|? [|? [|? [|]]]]; cbn [length] in *; try lia; reflexivity.
Qed.

Lemma member_in cs : inside cs ns -> block_of ns cs = b -> exists xs, inside xs ws /\ cs = shift ks xs /\ place_of cs = number (repeat 4%nat d) xs.
Proof.
  intros Hc E. destruct (proj1 (members ns b cs HP Hb) (Logic.conj Hc E)) as (xs & X & ->). exists xs. split; [exact X|]. split; [reflexivity|].
  apply member_place; assumption.
Qed.

Lemma save_same q : forall l off, (off + length q <= length l)%nat ->
  exists l', save Z q l (Z.of_nat off) = Some l' /\ length l' = length l /\ (forall i, (i < length q)%nat -> nth (off + i) l' 0 = nth i q 0) /\
    (forall i, (i < off)%nat -> nth i l' 0 = nth i l 0).
Proof.
  induction q as [|v q IH]; intros l off H; cbn [save length] in *.
  - exists l. split; [reflexivity|]. split; [reflexivity|]. split; [lia|reflexivity].
  - rewrite wr_some by lia. cbn [bind]. destruct (IH (upd l off v) (S off)) as (l' & E & L & N1 & N2); [rewrite upd_length'; lia|].
    exists l'. replace (Z.of_nat off + 1) with (Z.of_nat (S off)) by lia. rewrite Nat2Z.id. split; [exact E|]. rewrite upd_length' in L. split; [exact L|]. split.
    + intros [|i] Hi; cbn [nth].
      * rewrite Nat.add_0_r, N2 by lia. apply upd_nth_same. lia.
      * replace (off + S i)%nat with (S off + i)%nat by lia. apply N1. lia.
    + intros i Hi. rewrite N2 by lia. apply upd_nth_other. lia.
Qed.

Lemma scatter_line_ok q l : length l = (4 ^ d)%nat -> length q = (4 ^ d)%nat ->
  exists l', scatter_line q l d (shape_at ns b) = Some l' /\ length l' = length l /\
    forall cs, inside cs ns -> block_of ns cs = b -> nth (place_of cs) l' 0 = nth (place_of cs) q 0.
Proof.
  intros E Q. destruct (shape_at_spec ns b HL HP Hb) as [S0 S1]. unfold scatter_line.
  destruct (Z.eqb_spec (shape_at ns b) 0) as [Z0|Z0].
  - destruct (save_same q l 0) as (l' & A & B & C & _); [lia|]. exists l'. split; [exact A|]. split; [exact B|].
    intros cs Hc Eb. apply (C (place_of cs)). rewrite Q, <- (inside_length _ _ Hc). apply place_of_lt.
  - destruct (C16_scatter Z 0 q l 0 ws ls) as (l' & A & _ & B & C & _).
    { apply shape_ok. rewrite contiguous_length, repeat_length. reflexivity. }
    { rewrite HW2. exact Q. }
    { apply line_fits. exact E. }
    { apply line_no_overlap. }
    exists l'. split; [|split; [exact B|]].
    + rewrite S1 by exact Z0. rewrite <- A. unfold scatter_partial. pose proof HW2 as HW3. clear - HL HW3.
      destruct ns as [|? [|? [|? [|]]]]; cbn [length] in *; try lia; destruct (extents _ _) as [|? [|? [|? [|]]]]; cbn [length] in *; try lia; reflexivity.
    + intros cs Hc Eb. destruct (member_in cs Hc Eb) as (xs & X & -> & EP). specialize (C xs X).
      destruct (line_addr xs X) as [EA _]. rewrite EA in C. unfold at_addr in C. rewrite Nat2Z.id, HW2 in C. rewrite EP. exact C.
Qed.

(** ** Arrays in memory *)
Variable p : Z.
Notation ss := (contiguous 1 ns).
Definition block_ptr : Z := addr p ss (corner ks).

Lemma ptr_addr xs : inside xs ws -> addr block_ptr ss xs = addr p ss (shift ks xs) /\ inside (shift ks xs) ns /\ block_of ns (shift ks xs) = b.
Proof.
  intros H. split.
  - unfold block_ptr. symmetry. apply member_addr. rewrite (inside_length _ _ H), HW2, (inside_length _ _ HK), map_length. reflexivity.
  - apply members; [exact HP|exact Hb|]. exists xs. auto.
Qed.
Lemma ptr_fits (m : list Z) : fits m p ns ss -> fits m block_ptr ws ss.
Proof. intros F xs H. destruct (ptr_addr xs H) as (-> & I & _). apply F. exact I. Qed.
Lemma ptr_no_overlap : no_overlap block_ptr ws ss.
Proof.
  intros cs ds Hc Hd E. destruct (ptr_addr cs Hc) as (E1 & I1 & _). destruct (ptr_addr ds Hd) as (E2 & I2 & _). rewrite E1, E2 in E.
  apply contiguous_no_overlap in E; [|assumption..].
  destruct (shift_inside ns ks cs HK Hc) as (_ & _ & <-). destruct (shift_inside ns ks ds HK Hd) as (_ & _ & <-). rewrite E. reflexivity.
Qed.

Lemma gather_array_ok (m : list Z) : fits m p ns ss -> gather_array junk m block_ptr (shape_at ns b) ss = Some (array_block 0 m p ns ss b).
Proof.
  intros F. destruct (shape_at_spec ns b HL HP Hb) as [S0 S1].
  destruct (C16_gather Z 0 junk m block_ptr ws ss) as [G1 G2].
  { apply shape_ok, contiguous_length. }
  { rewrite HW2. exact HJ. }
  { apply ptr_fits. exact F. }
  assert (E : map (fun i => at_addr 0 m (addr block_ptr ss (map2 pad4 ws (position (length ws) i)))) (seq 0 (4 ^ length ws)) = array_block 0 m p ns ss b).
  { rewrite HW2. unfold array_block. apply map_ext. intros i. f_equal. rewrite (proj1 (ptr_addr _ (padded_inside ns b i HP))), cell_shift by exact HP. reflexivity. }
  rewrite E in G1, G2. unfold gather_array. destruct (Z.eqb_spec (shape_at ns b) 0) as [Z0|Z0].
  - rewrite <- (G2 (S0 Z0)). clear - HL. destruct ns as [|? [|? [|? [|]]]]; cbn [length] in *; try lia; reflexivity.
  - rewrite contiguous_length, S1 by exact Z0. rewrite <- G1. unfold gather_partial. pose proof HW2 as HW3. clear - HL HW3.
    destruct ns as [|? [|? [|? [|]]]]; cbn [length] in *; try lia; destruct (extents _ _) as [|? [|? [|? [|]]]]; cbn [length] in *; try lia; reflexivity.
Qed.

Lemma scatter_array_ok q (m : list Z) : fits m p ns ss -> length q = (4 ^ d)%nat ->
  exists m', scatter_array q m block_ptr (shape_at ns b) ss = Some m' /\ length m' = length m /\
    (forall cs, inside cs ns -> block_of ns cs = b -> at_addr 0 m' (addr p ss cs) = nth (place_of cs) q 0) /\
    (forall a, 0 <= a -> (forall cs, inside cs ns -> block_of ns cs = b -> addr p ss cs <> a) -> at_addr 0 m' a = at_addr 0 m a).
Proof.
  intros F Q. destruct (shape_at_spec ns b HL HP Hb) as [S0 S1].
  destruct (C16_scatter Z 0 q m block_ptr ws ss) as (m' & A & A' & B & C & D).
  { apply shape_ok, contiguous_length. }
  { rewrite HW2. exact Q. }
  { apply ptr_fits. exact F. }
  { apply ptr_no_overlap. }
  exists m'. split; [|split; [exact B|split]].
  - unfold scatter_array. destruct (Z.eqb_spec (shape_at ns b) 0) as [Z0|Z0].
    + rewrite <- (A' (S0 Z0)). clear - HL. destruct ns as [|? [|? [|? [|]]]]; cbn [length] in *; try lia; reflexivity.
    + rewrite contiguous_length, S1 by exact Z0. rewrite <- A. unfold scatter_partial. pose proof HW2 as HW3. clear - HL HW3.
      destruct ns as [|? [|? [|? [|]]]]; cbn [length] in *; try lia; destruct (extents _ _) as [|? [|? [|? [|]]]]; cbn [length] in *; try lia; reflexivity.
  - intros cs Hc Eb. destruct (member_in cs Hc Eb) as (xs & X & -> & EP). rewrite <- (proj1 (ptr_addr xs X)), (C xs X), HW2, EP. reflexivity.
  - intros a Ha H. apply D; [exact Ha|]. intros xs X E. destruct (ptr_addr xs X) as (E1 & I1 & B1). apply (H _ I1 B1). rewrite <- E1. exact E.
Qed.
End Move.

(** ** The loop over the blocks *)
Lemma level {S : Type} (F : nat -> Z * nat * S -> option (Z * nat * S)) (G : Z -> nat -> S -> option S) dp db :
  (forall k p b s, F k (p, b, s) = bind (G p b s) (fun s => Some (p + dp, (b + db)%nat, s))) ->
  forall n i p b s, for_ n i F (p, b, s) =
    bind (for_ n 0 (fun x s => G (p + dp * Z.of_nat x) (b + db * x)%nat s) s) (fun s => Some (p + dp * Z.of_nat n, (b + db * n)%nat, s)).
Proof.
  intros H. induction n as [|n IH]; intros i p b s; cbn [for_].
  - cbn [bind]. do 3 f_equal; lia.
  - rewrite H. replace (p + dp * Z.of_nat 0) with p by lia. replace (b + db * 0)%nat with b by lia.
    destruct (G p b s) as [s'|]; [|reflexivity]. cbn [bind]. rewrite IH. rewrite (for_shift n 0 1).
    assert (E : for_ n 0 (fun x s => G (p + dp + dp * Z.of_nat x) (b + db + db * x)%nat s) s' = for_ n 0 (fun x s => G (p + dp * Z.of_nat (x + 1)) (b + db * (x + 1))%nat s) s').
    { apply for_ext. intros x t _. f_equal; lia. }
    rewrite E. clear E. destruct (for_ n 0 _ s') as [t|]; [|reflexivity]. cbn [bind]. do 3 f_equal; lia.
Qed.

Lemma bind_some_id {S T : Type} (x : option S) (f : S -> T) (g : T -> S) : (forall s, g (f s) = s) -> bind (bind x (fun s => Some (f s))) (fun t => Some (g t)) = x.
Proof. intros H. destruct x; cbn [bind]; [rewrite H|]; reflexivity. Qed.

Lemma each_block_eq {S : Type} ns (body : Z -> nat -> S -> option S) p s : (1 <= length ns <= 3)%nat -> positive ns ->
  each_block ns body p s = for_ (blocks_in ns) 0 (fun b => body (block_ptr ns b p) b) s.
Proof.
  intros HL HP. unfold each_block.
  set (step := fun (_ : nat) (st : Z * nat * S) => let '(p, b, s) := st in s0 <- body p b s; Some (p + 4, (b + 1)%nat, s0)).
  assert (E1 : forall n i p b s, for_ n i step (p, b, s) = bind (for_ n 0 (fun x s => body (p + 4 * Z.of_nat x) (b + 1 * x)%nat s) s) (fun s => Some (p + 4 * Z.of_nat n, (b + 1 * n)%nat, s))).
  { apply level. intros k p0 b0 s0. reflexivity. }
  change per4 with blocks_along. unfold block_ptr, block_at, blocks_in.
  destruct ns as [|nx [|ny [|nz [|]]]]; cbn [length] in HL; try lia; cbn [map fold_right digits corner contiguous addr];
    repeat match goal with H : positive (_ :: _) |- _ => inversion H; clear H; subst end;
    repeat match goal with H : Forall _ (_ :: _) |- _ => inversion H; clear H; subst end.
  - rewrite E1. rewrite (bind_some_id (for_ (blocks_along nx) 0 _ s)) by reflexivity. rewrite Nat.mul_1_r.
    apply for_ext. intros b t Hb. rewrite Nat.mod_small by lia. f_equal; lia.
  - assert (HB : (0 < blocks_along nx)%nat) by (apply blocks_along_pos; assumption).
    rewrite (level _ (fun p b s => for_ (blocks_along nx) 0 (fun x s => body (p + 4 * Z.of_nat x) (b + 1 * x)%nat s) s) (4 * Z.of_nat nx) (blocks_along nx)).
    2:{ intros k p0 b0 s0. rewrite E1. destruct (for_ (blocks_along nx) 0 _ s0); [|reflexivity]. cbn [bind]. do 3 f_equal; lia. }
    rewrite bind_some_id by reflexivity.
    rewrite (for_nest (blocks_along nx) (blocks_along ny) (fun x y s => body (p + 4 * Z.of_nat nx * Z.of_nat y + 4 * Z.of_nat x) (0 + blocks_along nx * y + 1 * x)%nat s)) by exact HB.
    rewrite Nat.mul_1_r. apply for_ext. intros b t Hb. pose proof (Nat.div_mod b (blocks_along nx) ltac:(lia)) as DM.
    rewrite (Nat.mod_small (b / _)) by (apply Nat.div_lt_upper_bound; lia).
    f_equal; [rewrite !Nat2Z.inj_mul; ring|lia].
  - assert (HB : (0 < blocks_along nx)%nat) by (apply blocks_along_pos; assumption).
    assert (HB2 : (0 < blocks_along ny)%nat) by (apply blocks_along_pos; assumption).
    rewrite (level _ (fun p b s => for_ (blocks_along ny) 0 (fun y s => for_ (blocks_along nx) 0 (fun x s => body (p + 4 * Z.of_nat nx * Z.of_nat y + 4 * Z.of_nat x) (b + blocks_along nx * y + 1 * x)%nat s) s) s) (4 * Z.of_nat nx * Z.of_nat ny) (blocks_along nx * blocks_along ny)).
    2:{ intros k p0 b0 s0. rewrite (level _ (fun p b s => for_ (blocks_along nx) 0 (fun x s => body (p + 4 * Z.of_nat x) (b + 1 * x)%nat s) s) (4 * Z.of_nat nx) (blocks_along nx)).
      - destruct (for_ (blocks_along ny) 0 _ s0); [|reflexivity]. cbn [bind]. do 3 f_equal; lia.
      - intros k1 p1 b1 s1. rewrite E1. destruct (for_ (blocks_along nx) 0 _ s1); [|reflexivity]. cbn [bind]. do 3 f_equal; lia. }
    rewrite bind_some_id by reflexivity.
    rewrite (for_ext (blocks_along nz) 0 _ (fun z => for_ (blocks_along nx * blocks_along ny) 0 (fun k s => body (p + 4 * Z.of_nat nx * Z.of_nat ny * Z.of_nat z + 4 * Z.of_nat nx * Z.of_nat (k / blocks_along nx) + 4 * Z.of_nat (k mod blocks_along nx)) (0 + blocks_along nx * blocks_along ny * z + k)%nat s))).
    2:{ intros z t _. rewrite (for_nest (blocks_along nx) (blocks_along ny) (fun x y s => body (p + 4 * Z.of_nat nx * Z.of_nat ny * Z.of_nat z + 4 * Z.of_nat nx * Z.of_nat y + 4 * Z.of_nat x) (0 + blocks_along nx * blocks_along ny * z + blocks_along nx * y + 1 * x)%nat s)) by exact HB.
      apply for_ext. intros k u _. f_equal. pose proof (Nat.div_mod k (blocks_along nx) ltac:(lia)). lia. }
    rewrite (for_nest (blocks_along nx * blocks_along ny) (blocks_along nz) (fun k z s => body (p + 4 * Z.of_nat nx * Z.of_nat ny * Z.of_nat z + 4 * Z.of_nat nx * Z.of_nat (k / blocks_along nx) + 4 * Z.of_nat (k mod blocks_along nx)) (0 + blocks_along nx * blocks_along ny * z + k)%nat s)) by (clear - HB HB2; nia).
    rewrite Nat.mul_1_r, Nat.mul_assoc. apply for_ext. intros b t Hb.
    set (bx := blocks_along nx) in *. set (by_ := blocks_along ny) in *.
    assert (M1 : (b mod (bx * by_) mod bx = b mod bx)%nat).
    { rewrite Nat.mod_mul_r by lia. rewrite (Nat.mul_comm bx), Nat.mod_add, Nat.mod_mod by lia. reflexivity. }
    assert (M2 : (b mod (bx * by_) / bx = b / bx mod by_)%nat).
    { rewrite Nat.mod_mul_r by lia. rewrite (Nat.mul_comm bx), Nat.div_add by lia. rewrite Nat.div_small by (apply Nat.mod_upper_bound; lia). lia. }
    rewrite M1, M2, <- Nat.div_div by lia.
    rewrite (Nat.mod_small (b / bx / by_)) by (rewrite Nat.div_div by lia; apply Nat.div_lt_upper_bound; [clear - HB HB2; nia|lia]).
    pose proof (Nat.div_mod b (bx * by_) ltac:(clear - HB HB2; nia)) as DM. rewrite <- Nat.div_div in DM by lia.
    f_equal; [rewrite !Nat2Z.inj_mul; ring|lia].
Qed.
