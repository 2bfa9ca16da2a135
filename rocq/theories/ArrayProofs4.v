(** Decompression of an array block by block. *)
From Coq Require Import ZArith List Bool Arith Lia ZifyNat.
From Verif Require Import ListAux Bitstream ZfpXform ZfpArray ArraySpec XformProofs ArrayProofs ArrayProofs2 ArrayProofs3.
Import ListNotations.
Local Open Scope Z_scope.
Ltac Zify.zify_post_hook ::= Z.to_euclidean_division_equations.

Lemma block_of_digits ns cs b : inside cs ns -> block_of ns cs = b -> map (fun c => c / 4)%nat cs = block_at ns b.
Proof.
  intros H <-. unfold block_of, block_at. rewrite digits_number; [reflexivity|].
  induction H as [|c n cs ns Hc HF IH]; constructor; auto. unfold blocks_along. lia.
Qed.

Section Dec.
Variable A : Type.
Variable zero : A.
Variable dec : stream -> stream * option (list A).
Variable f : field.
Notation ns := (sizes f).
Notation ss := (steps f).
Notation base := (fdata f).
Notation dim := (zfp_field_dimensionality f).
Notation at_addr := (at_addr zero).

(** L is the list of writes that block b, decoded to q, causes *)
Definition block_writes (q : list A) (b : nat) (L : list (Z * A)) : Prop :=
  forall a v, In (a, v) L <->
    exists cs, inside cs ns /\ block_of ns cs = b /\ a = addr base ss cs /\ v = nth (place_of cs) q zero.

(** the memory after block b was decoded to q *)
Definition stored (q : list A) (b : nat) (m m' : list A) : Prop :=
  length m' = length m /\
  (forall cs, inside cs ns -> block_of ns cs = b -> at_addr m' (addr base ss cs) = nth (place_of cs) q zero) /\
  (forall a, 0 <= a -> (forall cs, inside cs ns -> block_of ns cs = b -> addr base ss cs <> a) -> at_addr m' a = at_addr m a).

Lemma block_writes_stored q b L m : fits m base ns ss -> no_overlap base ns ss -> block_writes q b L -> stored q b m (writes A m L).
Proof.
  intros HF HN HW. split; [apply writes_length|]. split.
  - intros cs Hc Hb. apply writes_same.
    + intros a v I. apply HW in I. destruct I as (ds & Hd & _ & -> & _). apply HF. exact Hd.
    + apply HW. exists cs. auto.
    + intros v I. apply HW in I. destruct I as (ds & Hd & _ & E & ->). apply HN in E; auto. subst ds. reflexivity.
  - intros a Ha H. apply writes_other.
    + intros c v I. apply HW in I. destruct I as (ds & Hd & _ & -> & _). apply HF in Hd. lia.
    + exact Ha.
    + intros v I. apply HW in I. destruct I as (ds & Hd & Hb & E & _). apply (H ds Hd Hb). auto.
Qed.

Definition decode_index (b : nat) (st : list A * stream) : option (list A * stream) :=
  let bx := blocks_along (fnx f) in let by_ := blocks_along (fny f) in let bz := blocks_along (fnz f) in
  match dim with
  | 1 => decode_at1 A dec f (4 * b) st
  | 2 => decode_at2 A dec f (4 * (b mod bx)) (4 * (b / bx)) st
  | 3 => decode_at3 A dec f (4 * (b mod bx)) (4 * (b / bx mod by_)) (4 * (b / bx / by_)) st
  | 4 => decode_at4 A dec f (4 * (b mod bx)) (4 * (b / bx mod by_)) (4 * (b / bx / by_ mod bz)) (4 * (b / bx / by_ / bz)) st
  | _ => None
  end%nat.

Lemma writes1 q b : dim = 1%nat -> (b < blocks_along (fnx f))%nat ->
  block_writes q b (L1 A zero q (Nat.min (fnx f - 4 * b) 4) (stride_x f) (base + stride_x f * Z.of_nat (4 * b)) 0).
Proof.
  intros D Hb. destruct (sizes_cases f) as [H|[H|[H|[H|H]]]]; try lia. destruct H as (_ & E1 & E2 & Px).
  intros a v. rewrite in_L1. rewrite E1, E2. split.
  - intros (x & Hx & -> & ->). exists [4 * b + x]%nat. conjs.
    + repeat constructor. lia.
    + cbn [block_of map number]. lia.
    + cbn [addr]. lia.
    + cbn [place_of map number length repeat]. f_equal. lia.
  - intros (cs & Hc & Hbl & -> & ->). pose proof (block_of_digits _ _ _ Hc Hbl) as BD. clear Hbl. inversion Hc as [|x n cs' ns' Hx Hr]; subst. inversion Hr; subst.
    cbn [block_at map digits] in BD. rewrite (Nat.mod_small b) in BD by lia. assert (x / 4 = b)%nat as B1 by congruence. clear BD. exists (x mod 4)%nat. conjs; [lia|cbn [addr]|].
    { assert (x = 4 * b + x mod 4)%nat by lia. generalize dependent (x mod 4)%nat. intros; subst; lia. }
    cbn [place_of map number length repeat]. f_equal. lia.
Qed.

Lemma writes2 q b : dim = 2%nat -> (b < blocks_along (fnx f) * blocks_along (fny f))%nat ->
  let bx := (b mod blocks_along (fnx f))%nat in let by_ := (b / blocks_along (fnx f))%nat in
  block_writes q b (L2 A zero q (Nat.min (fnx f - 4 * bx) 4) (Nat.min (fny f - 4 * by_) 4) (stride_x f) (stride_y f)
    (base + stride_x f * Z.of_nat (4 * bx) + stride_y f * Z.of_nat (4 * by_)) 0).
Proof.
  intros D Hb bx by_. destruct (sizes_cases f) as [H|[H|[H|[H|H]]]]; try lia. destruct H as (_ & E1 & E2 & Px & Py).
  pose proof (blocks_along_pos _ Px) as Qx. pose proof (blocks_along_pos _ Py) as Qy.
  assert (Bx : (bx < blocks_along (fnx f))%nat) by (apply Nat.mod_upper_bound; lia).
  assert (By : (by_ < blocks_along (fny f))%nat) by (apply Nat.div_lt_upper_bound; lia).
  assert (EB : b = (bx + blocks_along (fnx f) * by_)%nat).
  { unfold bx, by_. pose proof (Nat.div_mod b (blocks_along (fnx f)) ltac:(lia)). lia. }
  assert (DB : block_at [fnx f; fny f] b = [bx; by_]).
  { cbn [block_at map digits]. fold bx by_. rewrite (Nat.mod_small by_) by lia. reflexivity. }
  clearbody bx by_. intros a v. rewrite in_L2. rewrite E1, E2. split.
  - intros (x & y & Hx & Hy & -> & ->). exists [4 * bx + x; 4 * by_ + y]%nat. conjs.
    + repeat constructor; lia.
    + cbn [block_of map number]. replace ((4 * bx + x) / 4)%nat with bx by lia. replace ((4 * by_ + y) / 4)%nat with by_ by lia. lia.
    + cbn [addr]. lia.
    + cbn [place_of map number length repeat]. f_equal. lia.
  - intros (cs & Hc & Hbl & -> & ->). pose proof (block_of_digits _ _ _ Hc Hbl) as BD. rewrite DB in BD. clear Hbl EB Hb DB.
    inversion Hc as [|x n cs' ns' Hx Hr]; subst. inversion Hr as [|y n' cs'' ns'' Hy Hr']; subst. inversion Hr'; subst.
    cbn [map] in BD. assert (x / 4 = bx /\ y / 4 = by_)%nat as [B1 B2] by (split; congruence). clear BD.
    exists (x mod 4)%nat, (y mod 4)%nat. conjs; [lia|lia|cbn [addr]|].
    + assert (x = 4 * bx + x mod 4)%nat by lia. assert (y = 4 * by_ + y mod 4)%nat by lia. generalize dependent (x mod 4)%nat. generalize dependent (y mod 4)%nat. intros; subst; lia.
    + cbn [place_of map number length repeat]. f_equal. lia.
Qed.

Lemma writes3 q b : dim = 3%nat -> (b < blocks_along (fnx f) * blocks_along (fny f) * blocks_along (fnz f))%nat ->
  let bx := (b mod blocks_along (fnx f))%nat in let by_ := (b / blocks_along (fnx f) mod blocks_along (fny f))%nat in
  let bz := (b / blocks_along (fnx f) / blocks_along (fny f))%nat in
  block_writes q b (L3 A zero q (Nat.min (fnx f - 4 * bx) 4) (Nat.min (fny f - 4 * by_) 4) (Nat.min (fnz f - 4 * bz) 4) (stride_x f) (stride_y f) (stride_z f)
    (base + stride_x f * Z.of_nat (4 * bx) + stride_y f * Z.of_nat (4 * by_) + stride_z f * Z.of_nat (4 * bz)) 0).
Proof.
  intros D Hb bx by_ bz. destruct (sizes_cases f) as [H|[H|[H|[H|H]]]]; try lia. destruct H as (_ & E1 & E2 & Px & Py & Pz).
  pose proof (blocks_along_pos _ Px) as Qx. pose proof (blocks_along_pos _ Py) as Qy. pose proof (blocks_along_pos _ Pz) as Qz.
  assert (Bx : (bx < blocks_along (fnx f))%nat) by (apply Nat.mod_upper_bound; lia).
  assert (By : (by_ < blocks_along (fny f))%nat) by (apply Nat.mod_upper_bound; lia).
  assert (Bz : (bz < blocks_along (fnz f))%nat) by (apply Nat.div_lt_upper_bound; [lia|]; apply Nat.div_lt_upper_bound; lia).
  assert (DB : block_at [fnx f; fny f; fnz f] b = [bx; by_; bz]).
  { cbn [block_at map digits]. fold bx by_ bz. rewrite (Nat.mod_small bz) by lia. reflexivity. }
  assert (NB : number (map blocks_along [fnx f; fny f; fnz f]) [bx; by_; bz] = b).
  { rewrite <- DB. apply number_digits; [apply Forall_blocks; repeat constructor; assumption|]. cbn [map fold_right]. lia. }
  clearbody bx by_ bz. intros a v. rewrite in_L3. rewrite E1, E2. split.
  - intros (x & y & z & Hx & Hy & Hz & -> & ->). exists [4 * bx + x; 4 * by_ + y; 4 * bz + z]%nat. conjs.
    + repeat constructor; lia.
    + unfold block_of. rewrite <- NB. f_equal. cbn [map].
      replace ((4 * bx + x) / 4)%nat with bx by lia. replace ((4 * by_ + y) / 4)%nat with by_ by lia. replace ((4 * bz + z) / 4)%nat with bz by lia. reflexivity.
    + cbn [addr]. lia.
    + cbn [place_of map number length repeat]. f_equal. lia.
  - intros (cs & Hc & Hbl & -> & ->). pose proof (block_of_digits _ _ _ Hc Hbl) as BD. rewrite DB in BD. clear Hbl NB Hb DB.
    inversion Hc as [|x n cs' ns' Hx Hr]; subst. inversion Hr as [|y n' cs'' ns'' Hy Hr']; subst. inversion Hr' as [|z n'' c3 n3 Hz Hr'']; subst. inversion Hr''; subst.
    cbn [map] in BD. assert (x / 4 = bx /\ y / 4 = by_ /\ z / 4 = bz)%nat as (B1 & B2 & B3) by (repeat split; congruence). clear BD.
    exists (x mod 4)%nat, (y mod 4)%nat, (z mod 4)%nat. conjs; [lia|lia|lia|cbn [addr]|].
    + assert (x = 4 * bx + x mod 4)%nat by lia. assert (y = 4 * by_ + y mod 4)%nat by lia. assert (z = 4 * bz + z mod 4)%nat by lia. 
      generalize dependent (x mod 4)%nat. generalize dependent (y mod 4)%nat. generalize dependent (z mod 4)%nat. intros; subst; lia.
    + cbn [place_of map number length repeat]. f_equal. lia.
Qed.

Lemma writes4 q b : dim = 4%nat -> (b < blocks_along (fnx f) * blocks_along (fny f) * blocks_along (fnz f) * blocks_along (fnw f))%nat ->
  let bx := (b mod blocks_along (fnx f))%nat in let by_ := (b / blocks_along (fnx f) mod blocks_along (fny f))%nat in
  let bz := (b / blocks_along (fnx f) / blocks_along (fny f) mod blocks_along (fnz f))%nat in
  let bw := (b / blocks_along (fnx f) / blocks_along (fny f) / blocks_along (fnz f))%nat in
  block_writes q b (L4 A zero q (Nat.min (fnx f - 4 * bx) 4) (Nat.min (fny f - 4 * by_) 4) (Nat.min (fnz f - 4 * bz) 4) (Nat.min (fnw f - 4 * bw) 4)
    (stride_x f) (stride_y f) (stride_z f) (stride_w f)
    (base + stride_x f * Z.of_nat (4 * bx) + stride_y f * Z.of_nat (4 * by_) + stride_z f * Z.of_nat (4 * bz) + stride_w f * Z.of_nat (4 * bw)) 0).
Proof.
  intros D Hb bx by_ bz bw. destruct (sizes_cases f) as [H|[H|[H|[H|H]]]]; try lia. destruct H as (_ & E1 & E2 & Px & Py & Pz & Pw).
  pose proof (blocks_along_pos _ Px) as Qx. pose proof (blocks_along_pos _ Py) as Qy. pose proof (blocks_along_pos _ Pz) as Qz. pose proof (blocks_along_pos _ Pw) as Qw.
  assert (Bx : (bx < blocks_along (fnx f))%nat) by (apply Nat.mod_upper_bound; lia).
  assert (By : (by_ < blocks_along (fny f))%nat) by (apply Nat.mod_upper_bound; lia).
  assert (Bz : (bz < blocks_along (fnz f))%nat) by (apply Nat.mod_upper_bound; lia).
  assert (Bw : (bw < blocks_along (fnw f))%nat).
  { apply Nat.div_lt_upper_bound; [lia|]; apply Nat.div_lt_upper_bound; [lia|]. apply Nat.div_lt_upper_bound; [lia|]. lia. }
  assert (DB : block_at [fnx f; fny f; fnz f; fnw f] b = [bx; by_; bz; bw]).
  { cbn [block_at map digits]. fold bx by_ bz bw. rewrite (Nat.mod_small bw) by lia. reflexivity. }
  assert (NB : number (map blocks_along [fnx f; fny f; fnz f; fnw f]) [bx; by_; bz; bw] = b).
  { rewrite <- DB. apply number_digits; [apply Forall_blocks; repeat constructor; assumption|]. cbn [map fold_right]. lia. }
  clearbody bx by_ bz bw. intros a v. rewrite in_L4. rewrite E1, E2. split.
  - intros (x & y & z & w & Hx & Hy & Hz & Hw & -> & ->). exists [4 * bx + x; 4 * by_ + y; 4 * bz + z; 4 * bw + w]%nat. conjs.
    + repeat constructor; lia.
    + unfold block_of. rewrite <- NB. f_equal. cbn [map].
      replace ((4 * bx + x) / 4)%nat with bx by lia. replace ((4 * by_ + y) / 4)%nat with by_ by lia. replace ((4 * bz + z) / 4)%nat with bz by lia.
      replace ((4 * bw + w) / 4)%nat with bw by lia. reflexivity.
    + cbn [addr]. lia.
    + cbn [place_of map number length repeat]. f_equal. lia.
  - intros (cs & Hc & Hbl & -> & ->). pose proof (block_of_digits _ _ _ Hc Hbl) as BD. rewrite DB in BD. clear Hbl NB Hb DB.
    inversion Hc as [|x n cs' ns' Hx Hr]; subst. inversion Hr as [|y n' cs'' ns'' Hy Hr']; subst. inversion Hr' as [|z n'' c3 n3 Hz Hr'']; subst.
    inversion Hr'' as [|w n''' c4 n4 Hw Hr3]; subst. inversion Hr3; subst.
    cbn [map] in BD. assert (x / 4 = bx /\ y / 4 = by_ /\ z / 4 = bz /\ w / 4 = bw)%nat as (B1 & B2 & B3 & B4) by (repeat split; congruence). clear BD.
    exists (x mod 4)%nat, (y mod 4)%nat, (z mod 4)%nat, (w mod 4)%nat. conjs; [lia|lia|lia|lia|cbn [addr]|].
    + assert (x = 4 * bx + x mod 4)%nat by lia. assert (y = 4 * by_ + y mod 4)%nat by lia. assert (z = 4 * bz + z mod 4)%nat by lia. 
      assert (w = 4 * bw + w mod 4)%nat by lia.
      generalize dependent (x mod 4)%nat. generalize dependent (y mod 4)%nat. generalize dependent (z mod 4)%nat. generalize dependent (w mod 4)%nat. intros; subst; lia.
    + cbn [place_of map number length repeat]. f_equal. lia.
Qed.

Lemma decode_index_ok b m s s' q :
  (1 <= dim)%nat -> (b < blocks_in ns)%nat -> fits m base ns ss -> no_overlap base ns ss ->
  dec s = (s', Some q) -> length q = (4 ^ dim)%nat ->
  exists m', decode_index b (m, s) = Some (m', s') /\ stored q b m m'.
Proof.
  intros HD Hb HF HN HE HQ. rewrite <- block_count_in in Hb by exact HD. unfold block_count in Hb. change nblk with blocks_along in Hb.
  unfold decode_index. destruct (sizes_cases f) as [H|[H|[H|[H|H]]]]; destruct H as (D & _); rewrite D in Hb, HQ |- *; try lia.
  - pose proof (fit1 A m f HF D) as F.
    pose proof (writes1 q b D Hb) as W. unfold blocks_along in Hb.
    exists (writes A m (L1 A zero q (Nat.min (fnx f - 4 * b) 4) (stride_x f) (base + stride_x f * Z.of_nat (4 * b)) 0)).
    split; [|apply block_writes_stored; auto]. unfold decode_at1. rewrite HE. cbn [bind].
    assert (OK : forall x, (x < Nat.min (fnx f - 4 * b) 4)%nat -> okw (length m) (base + stride_x f * Z.of_nat (4 * b) + stride_x f * Z.of_nat x)).
    { intros x Hx. unfold okw. specialize (F (4 * b + x)%nat). lia. }
    destruct (Nat.ltb_spec (fnx f - 4 * b) 4).
    + replace (Nat.min (fnx f - 4 * b) 4) with (fnx f - 4 * b)%nat in * by lia. rewrite (scatter_partial1_ok A zero) by (auto; lia). reflexivity.
    + replace (Nat.min (fnx f - 4 * b) 4) with 4%nat in * by lia. rewrite (scatter1_ok A zero) by (auto; lia). reflexivity.
  - pose proof (fit2 A m f HF D) as F. pose proof (writes2 q b D Hb) as W. cbv zeta in W.
    set (bx := (b mod blocks_along (fnx f))%nat) in *. set (by_ := (b / blocks_along (fnx f))%nat) in *. clearbody bx by_.
    eexists. split; [|apply block_writes_stored; [exact HF|exact HN|exact W]].
    unfold decode_at2. rewrite HE. cbn [bind].
    set (wx := Nat.min (fnx f - 4 * bx) 4) in *. set (wy := Nat.min (fny f - 4 * by_) 4) in *.
    set (p := base + stride_x f * Z.of_nat (4 * bx) + stride_y f * Z.of_nat (4 * by_)) in *.
    assert (OK : forall y x, (y < wy)%nat -> (x < wx)%nat -> okw (length m) (p + stride_y f * Z.of_nat y + stride_x f * Z.of_nat x)).
    { intros y x Hy Hx. unfold okw, p. specialize (F (4 * bx + x)%nat (4 * by_ + y)%nat). lia. }
    destruct (Nat.ltb_spec (fnx f - 4 * bx) 4); [|destruct (Nat.ltb_spec (fny f - 4 * by_) 4)]; cbn [orb].
    1,2: rewrite (scatter_partial2_ok A zero) by (auto; lia); reflexivity.
    assert (wx = 4%nat) as W1 by lia. assert (wy = 4%nat) as W2 by lia. rewrite W1, W2 in *. rewrite (scatter2_ok A zero) by auto. reflexivity.
  - pose proof (fit3 A m f HF D) as F. pose proof (writes3 q b D Hb) as W. cbv zeta in W.
    set (bx := (b mod blocks_along (fnx f))%nat) in *. set (bz := (b / blocks_along (fnx f) / blocks_along (fny f))%nat) in *.
    set (by_ := (b / blocks_along (fnx f) mod blocks_along (fny f))%nat) in *. clearbody bx by_ bz.
    eexists. split; [|apply block_writes_stored; [exact HF|exact HN|exact W]].
    unfold decode_at3. rewrite HE. cbn [bind].
    set (wx := Nat.min (fnx f - 4 * bx) 4) in *. set (wy := Nat.min (fny f - 4 * by_) 4) in *. set (wz := Nat.min (fnz f - 4 * bz) 4) in *.
    set (p := base + stride_x f * Z.of_nat (4 * bx) + stride_y f * Z.of_nat (4 * by_) + stride_z f * Z.of_nat (4 * bz)) in *.
    assert (OK : forall z y x, (z < wz)%nat -> (y < wy)%nat -> (x < wx)%nat ->
      okw (length m) (p + stride_z f * Z.of_nat z + stride_y f * Z.of_nat y + stride_x f * Z.of_nat x)).
    { intros z y x Hz Hy Hx. unfold okw, p. specialize (F (4 * bx + x)%nat (4 * by_ + y)%nat (4 * bz + z)%nat). lia. }
    destruct (Nat.ltb_spec (fnx f - 4 * bx) 4); [|destruct (Nat.ltb_spec (fny f - 4 * by_) 4); [|destruct (Nat.ltb_spec (fnz f - 4 * bz) 4)]]; cbn [orb].
    1,2,3: rewrite (scatter_partial3_ok A zero) by (auto; lia); reflexivity.
    assert (wx = 4%nat) as W1 by lia. assert (wy = 4%nat) as W2 by lia. assert (wz = 4%nat) as W3 by lia.
    rewrite W1, W2, W3 in *. rewrite (scatter3_ok A zero) by auto. reflexivity.
  - pose proof (fit4 A m f HF D) as F. pose proof (writes4 q b D Hb) as W. cbv zeta in W.
    set (bx := (b mod blocks_along (fnx f))%nat) in *. set (bw := (b / blocks_along (fnx f) / blocks_along (fny f) / blocks_along (fnz f))%nat) in *.
    set (bz := (b / blocks_along (fnx f) / blocks_along (fny f) mod blocks_along (fnz f))%nat) in *.
    set (by_ := (b / blocks_along (fnx f) mod blocks_along (fny f))%nat) in *. clearbody bx by_ bz bw.
    eexists. split; [|apply block_writes_stored; [exact HF|exact HN|exact W]].
    unfold decode_at4. rewrite HE. cbn [bind].
    set (wx := Nat.min (fnx f - 4 * bx) 4) in *. set (wy := Nat.min (fny f - 4 * by_) 4) in *. set (wz := Nat.min (fnz f - 4 * bz) 4) in *.
    set (ww := Nat.min (fnw f - 4 * bw) 4) in *.
    set (p := base + stride_x f * Z.of_nat (4 * bx) + stride_y f * Z.of_nat (4 * by_) + stride_z f * Z.of_nat (4 * bz) + stride_w f * Z.of_nat (4 * bw)) in *.
    assert (OK : forall w z y x, (w < ww)%nat -> (z < wz)%nat -> (y < wy)%nat -> (x < wx)%nat ->
      okw (length m) (p + stride_w f * Z.of_nat w + stride_z f * Z.of_nat z + stride_y f * Z.of_nat y + stride_x f * Z.of_nat x)).
    { intros w z y x Hw Hz Hy Hx. unfold okw, p. specialize (F (4 * bx + x)%nat (4 * by_ + y)%nat (4 * bz + z)%nat (4 * bw + w)%nat). lia. }
    destruct (Nat.ltb_spec (fnx f - 4 * bx) 4); [|destruct (Nat.ltb_spec (fny f - 4 * by_) 4); [|destruct (Nat.ltb_spec (fnz f - 4 * bz) 4);
      [|destruct (Nat.ltb_spec (fnw f - 4 * bw) 4)]]]; cbn [orb].
    1,2,3,4: rewrite (scatter_partial4_ok A zero) by (auto; lia); reflexivity.
    assert (wx = 4%nat) as W1 by lia. assert (wy = 4%nat) as W2 by lia. assert (wz = 4%nat) as W3 by lia. assert (ww = 4%nat) as W4 by lia.
    rewrite W1, W2, W3, W4 in *. rewrite (scatter4_ok A zero) by auto. reflexivity.
Qed.

(** n calls of the block decoder *)
Fixpoint decode_seq (n : nat) (s : stream) : option (list (list A) * stream) :=
  match n with
  | O => Some ([], s)
  | S k => let '(s, b) := dec s in b <- b; r <- decode_seq k s; Some (b :: fst r, snd r)
  end.

Lemma decode_run n : forall b m s s' qs,
  (1 <= dim)%nat -> (b + n <= blocks_in ns)%nat -> fits m base ns ss -> no_overlap base ns ss ->
  decode_seq n s = Some (qs, s') -> Forall (fun q => length q = (4 ^ dim)%nat) qs ->
  exists m', for_ n b decode_index (m, s) = Some (m', s') /\ length m' = length m /\
    (forall cs, inside cs ns -> (b <= block_of ns cs < b + n)%nat ->
       at_addr m' (addr base ss cs) = nth (place_of cs) (nth (block_of ns cs - b) qs []) zero) /\
    (forall a, 0 <= a -> (forall cs, inside cs ns -> (b <= block_of ns cs < b + n)%nat -> addr base ss cs <> a) -> at_addr m' a = at_addr m a).
Proof.
  induction n as [|n IH]; intros b m s s' qs HD Hb HF HN HS HQ.
  - injection HS as <- <-. exists m. conjs; auto; intros; lia.
  - cbn [decode_seq] in HS. destruct (dec s) as [s1 [q|]] eqn:E; cbn [bind] in HS; [|discriminate].
    destruct (decode_seq n s1) as [[qs1 s2]|] eqn:E2; cbn [bind fst snd] in HS; [|discriminate]. injection HS as <- <-.
    inversion HQ; subst.
    destruct (decode_index_ok b m s s1 q HD ltac:(lia) HF HN E ltac:(assumption)) as (m1 & R1 & L & S1 & S2).
    assert (HF1 : fits m1 base ns ss) by (intros cs Hc; rewrite L; apply HF; exact Hc).
    destruct (IH (S b) m1 s1 s2 qs1 HD ltac:(lia) HF1 HN E2 ltac:(assumption)) as (m2 & R2 & L2 & T1 & T2).
    exists m2. cbn [for_]. rewrite R1. cbn [bind]. conjs; [exact R2|lia| |].
    + intros cs Hc Hbl. destruct (Nat.eq_dec (block_of ns cs) b) as [EB|NB].
      * rewrite EB, Nat.sub_diag. cbn [nth]. rewrite T2; [apply S1; auto| |].
        -- apply HF in Hc. lia.
        -- intros ds Hd Hbd EA. apply HN in EA; auto. subst ds. lia.
      * rewrite T1 by (auto; lia). replace (block_of ns cs - b)%nat with (S (block_of ns cs - S b)) by lia. reflexivity.
    + intros a Ha H. rewrite T2; [apply S2|exact Ha|]; auto.
      * intros cs Hc Hbl. apply H; [exact Hc|lia].
      * intros cs Hc Hbl. apply H; [exact Hc|lia].
Qed.

Lemma save_writes q m p : okw (length m) p -> okw (length m) (p + Z.of_nat (length q) - 1) ->
  save A q m p = Some (writes A m (L1 A zero q (length q) 1 p 0)).
Proof.
  intros H1 H2.
  assert (G : forall r off, (off + length r = length q)%nat -> (forall i, (i < length r)%nat -> nth i r zero = nth (off + i) q zero) -> forall m', length m' = length m ->
     save A r m' (p + Z.of_nat off) = Some (writes A m' (lev A (L0 A zero q) 1 (length r) 1 (p + Z.of_nat off) off))).
  { induction r as [|v r IH]; intros off HO HV m' HM; [reflexivity|]. cbn [save length] in *.
    rewrite wr_some by (rewrite HM; unfold okw in *; lia). cbn [bind].
    replace (p + Z.of_nat off + 1) with (p + Z.of_nat (S off)) by lia.
    rewrite (IH (S off)); [|lia| |rewrite upd_length'; exact HM].
    2:{ intros i Hi. specialize (HV (S i) ltac:(lia)). cbn [nth] in HV. rewrite HV. f_equal. lia. }
    unfold lev at 2. cbn [seq flat_map]. rewrite writes_app. cbn [L0 writes fold_left].
    specialize (HV 0%nat ltac:(lia)). cbn [nth] in HV.
    replace (Z.to_nat (p + Z.of_nat off + 1 * Z.of_nat 0)) with (Z.to_nat (p + Z.of_nat off)) by lia.
    rewrite Nat.mul_0_r, <- HV. apply (f_equal Some). unfold writes, lev. f_equal. rewrite <- seq_shift, flat_map_concat_map, (flat_map_concat_map _ (map S _)), map_map.
    f_equal. apply map_ext. intros i. unfold L0. f_equal. f_equal; [lia|f_equal; lia]. }
  specialize (G q 0%nat ltac:(lia) ltac:(reflexivity) m eq_refl). rewrite Z.add_0_r in G. exact G.
Qed.

Lemma decompress1_full_for k j data m s qs s' :
  data = base + Z.of_nat (4 * j) -> (4 * (j + k) <= fnx f)%nat -> dim = 1%nat -> strided f = false -> fits m base ns ss ->
  decode_seq k s = Some (qs, s') -> Forall (fun q => length q = 4%nat) qs ->
  decompress1_full A dec k data (m, s) =
    (st <- for_ k j decode_index (m, s); Some (base + Z.of_nat (4 * (j + k)), st)).
Proof.
  revert j data m s qs s'. induction k as [|k IH]; intros j data m s qs s' -> Hk D ST HF HS HQ; cbn [decompress1_full for_].
  - cbn [bind]. rewrite Nat.add_0_r. reflexivity.
  - cbn [decode_seq] in HS.
    unfold decode_index at 1. rewrite D. unfold decode_at1. destruct (dec s) as [s1 [q|]] eqn:E; cbn [bind] in HS |- *; [|discriminate].
    destruct (decode_seq k s1) as [[qs1 s2]|] eqn:E2; cbn [bind fst snd] in HS; [|discriminate].
    assert (EQ : q :: qs1 = qs) by congruence. subst qs. inversion HQ as [|q' qs' LQ HQ']; subst. clear HS.
    pose proof (fit1 A m f HF D) as F. pose proof (strided_sx f ST) as SX. rewrite SX in *.
    destruct (Nat.ltb_spec (fnx f - 4 * j) 4); [lia|].
    rewrite save_writes.
    2,3: unfold okw; rewrite ?LQ; pose proof (F (4 * j)%nat); pose proof (F (4 * j + 3)%nat); lia.
    rewrite (scatter1_ok A zero).
    2:{ exact LQ. } 2:{ intros x Hx. unfold okw. specialize (F (4 * j + x)%nat). lia. }
    cbn [bind]. rewrite LQ. replace (base + 1 * Z.of_nat (4 * j)) with (base + Z.of_nat (4 * j)) by lia.
    rewrite (IH (S j) _ _ _ qs1 s2); [|lia|lia|exact D|exact ST| |exact E2|exact HQ'].
    2:{ intros cs Hc. rewrite writes_length. apply HF. exact Hc. }
    destruct (for_ k (S j) _ _); [|reflexivity]. cbn [bind]. do 3 f_equal. lia.
Qed.

Lemma decode_seq_app a b s : decode_seq (a + b) s =
  (r <- decode_seq a s; t <- decode_seq b (snd r); Some (fst r ++ fst t, snd t)).
Proof.
  revert s. induction a as [|a IH]; intros s; cbn [Nat.add decode_seq].
  - cbn [bind fst snd]. destruct (decode_seq b s) as [[? ?]|]; reflexivity.
  - destruct (dec s) as [s1 [q|]]; [|reflexivity]. cbn [bind]. rewrite IH.
    destruct (decode_seq a s1) as [[? ?]|]; [|reflexivity]. cbn [bind fst snd].
    destruct (decode_seq b _) as [[? ?]|]; reflexivity.
Qed.
Lemma for_length n b m s m' s' : fits m base ns ss -> no_overlap base ns ss -> (1 <= dim)%nat -> (b + n <= blocks_in ns)%nat ->
  forall qs s'', decode_seq n s = Some (qs, s'') -> Forall (fun q => length q = (4 ^ dim)%nat) qs ->
  for_ n b decode_index (m, s) = Some (m', s') -> length m' = length m /\ s' = s''.
Proof.
  intros HF HN HD Hb qs s'' HS HQ HR. destruct (decode_run n b m s s'' qs HD Hb HF HN HS HQ) as (m2 & E & L & _).
  rewrite E in HR. split; congruence.
Qed.

Lemma decompress1_for m s qs s' : dim = 1%nat -> strided f = false -> fits m base ns ss -> no_overlap base ns ss ->
  decode_seq (blocks_along (fnx f)) s = Some (qs, s') -> Forall (fun q => length q = 4%nat) qs ->
  decompress1 A dec f (m, s) = for_ (blocks_along (fnx f)) 0 decode_index (m, s).
Proof.
  intros D ST HF HN HS HQ. unfold decompress1. replace (4 * (fnx f / 4) / 4)%nat with (fnx f / 4)%nat by lia.
  assert (BI : blocks_in ns = blocks_along (fnx f)) by (rewrite <- block_count_in by lia; unfold block_count; rewrite D; reflexivity).
  destruct (Nat.ltb_spec (4 * (fnx f / 4)) (fnx f)) as [L|L].
  - replace (blocks_along (fnx f)) with (fnx f / 4 + 1)%nat in * by (unfold blocks_along; lia). rewrite decode_seq_app in HS.
    destruct (decode_seq (fnx f / 4) s) as [[qa sa]|] eqn:EA; cbn [bind fst snd] in HS; [|discriminate].
    destruct (decode_seq 1 sa) as [[qb sb]|] eqn:EB; cbn [bind fst snd] in HS; [|discriminate].
    assert (EQ : qa ++ qb = qs) by congruence. subst qs. apply Forall_app in HQ. destruct HQ as [QA QB].
    rewrite (decompress1_full_for (fnx f / 4) 0 _ _ _ qa sa) by (auto; lia). rewrite for_app.
    destruct (for_ (fnx f / 4) 0 decode_index (m, s)) as [[m1 s1]|] eqn:ER; [|reflexivity]. cbn [bind Nat.add for_].
    destruct (for_length (fnx f / 4) 0 m s m1 s1 HF HN ltac:(lia) ltac:(lia) qa sa EA ltac:(rewrite D; exact QA) ER) as [LM ->].
    unfold decode_index. rewrite D. unfold decode_at1. cbn [decode_seq] in EB. destruct (dec sa) as [s2 [q|]]; [|reflexivity]. cbn [bind].
    rewrite (strided_sx f ST). replace (base + 1 * Z.of_nat (4 * (fnx f / 4))) with (base + Z.of_nat (4 * (fnx f / 4))) by lia.
    destruct (Nat.ltb_spec (fnx f - 4 * (fnx f / 4)) 4); [|lia]. destruct (scatter_partial1 A q m1 _ _ _); reflexivity.
  - replace (blocks_along (fnx f)) with (fnx f / 4)%nat in * by (unfold blocks_along; lia).
    rewrite (decompress1_full_for (fnx f / 4) 0 _ _ _ qs s') by (auto; lia).
    destruct (for_ (fnx f / 4) 0 _ _) as [[? ?]|]; reflexivity.
Qed.

Lemma decompress_for m s qs s' : (1 <= dim)%nat -> fits m base ns ss -> no_overlap base ns ss ->
  decode_seq (blocks_in ns) s = Some (qs, s') -> Forall (fun q => length q = (4 ^ dim)%nat) qs ->
  decompress A dec f (m, s) = for_ (blocks_in ns) 0 decode_index (m, s).
Proof.
  intros HD HF HN. rewrite <- block_count_in by exact HD. unfold decompress, block_count. change nblk with blocks_along.
  destruct (sizes_cases f) as [H|H]; [lia|]. destruct H as [H|[H|[H|H]]]; destruct H as (D & E1 & E2 & HP); rewrite D; intros HS HQ.
  - destruct (strided f) eqn:ST; [|eapply decompress1_for; eauto].
    unfold decompress_strided1. rewrite loop4_for. apply for_ext. intros j t Hj. unfold decode_index. rewrite D. reflexivity.
  - unfold decompress_strided2. rewrite loop4_for. rewrite (for_ext _ _ _ _ _ (fun _ _ _ => loop4_for _ _ _)). pose proof (blocks_along_pos (fnx f) ltac:(tauto)).
    rewrite (for_nest (blocks_along (fnx f)) (blocks_along (fny f)) (fun x y => decode_at2 A dec f (4 * x) (4 * y))) by lia.
    apply for_ext. intros b t Hb. unfold decode_index. rewrite D. reflexivity.
  - unfold decompress_strided3. rewrite loop4_for.
    pose proof (blocks_along_pos (fnx f) ltac:(tauto)). pose proof (blocks_along_pos (fny f) ltac:(tauto)).
    transitivity (for_ (blocks_along (fnz f)) 0 (fun z => for_ (blocks_along (fnx f) * blocks_along (fny f)) 0
       (fun k => decode_at3 A dec f (4 * (k mod blocks_along (fnx f))) (4 * (k / blocks_along (fnx f))) (4 * z))) (m, s)).
    { apply for_ext. intros z t Hz. rewrite loop4_for. rewrite (for_ext _ _ _ _ _ (fun _ _ _ => loop4_for _ _ _)).
      apply (for_nest (blocks_along (fnx f)) (blocks_along (fny f)) (fun x y => decode_at3 A dec f (4 * x) (4 * y) (4 * z))); lia. }
    rewrite (for_nest (blocks_along (fnx f) * blocks_along (fny f)) (blocks_along (fnz f)) (fun k z =>
       decode_at3 A dec f (4 * (k mod blocks_along (fnx f))) (4 * (k / blocks_along (fnx f))) (4 * z))) by nia.
    apply for_ext. intros b t Hb. unfold decode_index. rewrite D. f_equal; f_equal.
    + rewrite Nat.mod_mul_r by lia. rewrite Nat.mul_comm, Nat.mod_add, Nat.mod_mod by lia. reflexivity.
    + rewrite Nat.mod_mul_r by lia. rewrite (Nat.mul_comm (blocks_along (fnx f)) (_ mod _)), Nat.div_add by lia.
      rewrite (Nat.div_small (b mod _)) by (apply Nat.mod_upper_bound; lia). reflexivity.
    + rewrite Nat.div_div by lia. reflexivity.
  - unfold decompress_strided4. rewrite loop4_for.
    pose proof (blocks_along_pos (fnx f) ltac:(tauto)). pose proof (blocks_along_pos (fny f) ltac:(tauto)). pose proof (blocks_along_pos (fnz f) ltac:(tauto)).
    unfold decode_index. rewrite D.
    set (nx := blocks_along (fnx f)) in *. set (ny := blocks_along (fny f)) in *. set (nz := blocks_along (fnz f)) in *.
    transitivity (for_ (blocks_along (fnw f)) 0 (fun w => for_ (nx * ny * nz) 0
       (fun k => decode_at4 A dec f (4 * (k mod (nx * ny) mod nx)) (4 * (k mod (nx * ny) / nx)) (4 * (k / (nx * ny))) (4 * w))) (m, s)).
    { apply for_ext. intros w t Hw. rewrite loop4_for.
      transitivity (for_ nz 0 (fun z => for_ (nx * ny) 0 (fun k => decode_at4 A dec f (4 * (k mod nx)) (4 * (k / nx)) (4 * z) (4 * w))) t).
      - apply for_ext. intros z u Hz. rewrite loop4_for. rewrite (for_ext _ _ _ _ _ (fun _ _ _ => loop4_for _ _ _)).
        apply (for_nest nx ny (fun x y => decode_at4 A dec f (4 * x) (4 * y) (4 * z) (4 * w))); lia.
      - apply (for_nest (nx * ny) nz (fun k z => decode_at4 A dec f (4 * (k mod nx)) (4 * (k / nx)) (4 * z) (4 * w))); nia. }
    rewrite (for_nest (nx * ny * nz) (blocks_along (fnw f)) (fun k w => decode_at4 A dec f (4 * (k mod (nx * ny) mod nx)) (4 * (k mod (nx * ny) / nx)) (4 * (k / (nx * ny))) (4 * w))) by nia.
    apply for_ext. intros b t Hb.
    assert (MM : forall a c, (0 < a)%nat -> (0 < c)%nat -> (b mod (a * c) mod a = b mod a)%nat).
    { intros a c Ha Hc. rewrite Nat.mod_mul_r by lia. rewrite Nat.mul_comm, Nat.mod_add, Nat.mod_mod by lia. reflexivity. }
    assert (MD : forall e a c, (0 < a)%nat -> (0 < c)%nat -> (e mod (a * c) / a = e / a mod c)%nat).
    { intros e a c Ha Hc. rewrite Nat.mod_mul_r by lia. rewrite (Nat.mul_comm a (_ mod _)), Nat.div_add by lia.
      rewrite (Nat.div_small (e mod _)) by (apply Nat.mod_upper_bound; lia). reflexivity. }
    f_equal; f_equal.
    + rewrite (MM (nx * ny)%nat nz) by nia. apply MM; lia.
    + rewrite (MM (nx * ny)%nat nz) by nia. apply MD; lia.
    + rewrite (MD b (nx * ny)%nat nz) by nia. rewrite Nat.div_div by lia. reflexivity.
    + rewrite !Nat.div_div by nia. f_equal; lia.
Qed.

(** decompression stores every decoded value at the address of its element and nothing else *)
Theorem decompress_ok m s qs s' : (1 <= dim)%nat -> fits m base ns ss -> no_overlap base ns ss ->
  decode_seq (blocks_in ns) s = Some (qs, s') -> Forall (fun q => length q = (4 ^ dim)%nat) qs ->
  exists m', decompress A dec f (m, s) = Some (m', s') /\ length m' = length m /\
    (forall cs, inside cs ns -> at_addr m' (addr base ss cs) = nth (place_of cs) (nth (block_of ns cs) qs []) zero) /\
    (forall a, 0 <= a -> (forall cs, inside cs ns -> addr base ss cs <> a) -> at_addr m' a = at_addr m a).
Proof.
  intros HD HF HN HS HQ. rewrite (decompress_for m s qs s') by assumption.
  destruct (decode_run (blocks_in ns) 0 m s s' qs HD ltac:(lia) HF HN HS HQ) as (m' & E & L & T1 & T2).
  exists m'. conjs; [exact E|exact L| |].
  - intros cs Hc. rewrite T1; [rewrite Nat.sub_0_r; reflexivity|exact Hc|pose proof (block_of_lt ns cs Hc); lia].
  - intros a Ha H. apply T2; [exact Ha|]. intros cs Hc _. apply H. exact Hc.
Qed.
End Dec.
