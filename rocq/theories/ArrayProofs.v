(** Gather and scatter, level by level. *)
From Coq Require Import ZArith List Bool Arith Lia ZifyNat.
From Verif Require Import ListAux Bitstream ZfpXform ZfpArray ArraySpec XformProofs.
Import ListNotations.
Local Open Scope Z_scope.
Ltac Zify.zify_post_hook ::= Z.to_euclidean_division_equations.

(** ** loops *)
Lemma for_inv {S : Type} (I : nat -> S -> Prop) n i body (s : S) :
  I i s -> (forall j s, (i <= j < i + n)%nat -> I j s -> exists s', body j s = Some s' /\ I (Datatypes.S j) s') ->
  exists s', for_ n i body s = Some s' /\ I (i + n)%nat s'.
Proof.
  revert i s. induction n as [|n IH]; intros i s Hs HB; cbn [for_].
  - exists s. rewrite Nat.add_0_r. auto.
  - destruct (HB i s ltac:(lia) Hs) as (s1 & E1 & I1). rewrite E1. cbn [bind].
    destruct (IH (Datatypes.S i) s1 I1) as (s2 & E2 & I2); [intros; apply HB; auto; lia|].
    exists s2. split; [exact E2|]. replace (i + Datatypes.S n)%nat with (Datatypes.S i + n)%nat by lia. exact I2.
Qed.

Lemma for_ext {S : Type} n i (f g : nat -> S -> option S) s :
  (forall j s, (i <= j < i + n)%nat -> f j s = g j s) -> for_ n i f s = for_ n i g s.
Proof.
  revert i s. induction n as [|n IH]; intros i s H; cbn [for_]; [reflexivity|].
  rewrite H by lia. destruct (g i s); [|reflexivity]. cbn [bind]. apply IH. intros. apply H. lia.
Qed.

Lemma for_app {S : Type} a b i (f : nat -> S -> option S) s :
  for_ (a + b) i f s = (s <- for_ a i f s; for_ b (i + a) f s).
Proof.
  revert i s. induction a as [|a IH]; intros i s; cbn [for_ Nat.add bind].
  - rewrite Nat.add_0_r. reflexivity.
  - destruct (f i s) as [s1|]; [|reflexivity]. cbn [bind]. rewrite IH.
    replace (i + Datatypes.S a)%nat with (Datatypes.S i + a)%nat by lia. reflexivity.
Qed.

Lemma for_shift {S : Type} n i k (f : nat -> S -> option S) s :
  for_ n (i + k) f s = for_ n i (fun j => f (j + k)%nat) s.
Proof.
  revert i s. induction n as [|n IH]; intros i s; cbn [for_]; [reflexivity|].
  destruct (f (i + k)%nat s); [|reflexivity]. cbn [bind]. apply (IH (Datatypes.S i)).
Qed.

Lemma for_nest {S : Type} a b (g : nat -> nat -> S -> option S) s : (0 < a)%nat ->
  for_ b 0 (fun y => for_ a 0 (fun x => g x y)) s = for_ (a * b) 0 (fun k => g (k mod a) (k / a))%nat s.
Proof.
  intros Ha. revert s. induction b as [|b IH]; intros s.
  - rewrite Nat.mul_0_r. reflexivity.
  - replace (Datatypes.S b) with (b + 1)%nat by lia. rewrite for_app, IH.
    replace (a * (b + 1))%nat with (a * b + a)%nat by lia. rewrite for_app.
    destruct (for_ (a * b) 0 _ s) as [s1|]; [|reflexivity]. cbn [bind for_].
    rewrite for_shift. replace (0 + b)%nat with b by lia.
    transitivity (for_ a 0 (fun x => g x b) s1); [destruct (for_ a 0 (fun x => g x b) s1); reflexivity|].
    apply for_ext. intros j s2 J. f_equal.
    + rewrite (Nat.mul_comm a b), Nat.mod_add by lia. symmetry. apply Nat.mod_small. lia.
    + rewrite (Nat.mul_comm a b), Nat.div_add by lia. rewrite Nat.div_small by lia. reflexivity.
Qed.

Lemma step4_for {S : Type} fuel n k (body : nat -> S -> option S) s :
  (n <= 4 * k + 4 * fuel - 4)%nat -> (0 < fuel)%nat ->
  step4 fuel n (4 * k) body s = for_ (blocks_along n - k) k (fun j => body (4 * j)%nat) s.
Proof.
  revert k s. induction fuel as [|fuel IH]; intros k s Hn Hf; [lia|]. cbn [step4].
  destruct (Nat.ltb_spec (4 * k) n) as [L|L].
  - replace (blocks_along n - k)%nat with (Datatypes.S (blocks_along n - Datatypes.S k)).
    2:{ unfold blocks_along. lia. }
    cbn [for_]. destruct (body (4 * k)%nat s) as [s1|]; [|reflexivity]. cbn [bind].
    replace (4 * k + 4)%nat with (4 * Datatypes.S k)%nat by lia. apply IH; lia.
  - replace (blocks_along n - k)%nat with 0%nat by (unfold blocks_along; lia). reflexivity.
Qed.

Lemma loop4_for {S : Type} n (body : nat -> S -> option S) s :
  loop4 n body s = for_ (blocks_along n) 0 (fun j => body (4 * j)%nat) s.
Proof. unfold loop4. rewrite (step4_for _ n 0) by lia. f_equal. lia. Qed.

Lemma seq_from n k : seq n k = map (fun i => (n + i)%nat) (seq 0 k).
Proof.
  revert n. induction k as [|k IH]; intros n; [reflexivity|]. cbn [seq map]. rewrite Nat.add_0_r. f_equal.
  rewrite IH. rewrite <- seq_shift, map_map. apply map_ext. intros. lia.
Qed.

Section Arr.
Variable A : Type.
Variable zero : A.
Notation at_addr := (at_addr zero).

Lemma upd_length' (l : list A) i v : length (upd l i v) = length l.
Proof. revert i. induction l as [|a l IH]; intros [|i]; cbn; auto. Qed.
Lemma upd_nth_same (l : list A) i v d : (i < length l)%nat -> nth i (upd l i v) d = v.
Proof. revert i. induction l as [|a l IH]; intros [|i]; cbn; intros; try lia; auto. apply IH. lia. Qed.
Lemma upd_nth_other (l : list A) i j v d : i <> j -> nth j (upd l i v) d = nth j l d.
Proof. revert i j. induction l as [|a l IH]; intros [|i] [|j]; cbn; intros; try lia; auto. Qed.

Lemma rd_some (m : list A) p : 0 <= p < Z.of_nat (length m) -> rd A m p = Some (at_addr m p).
Proof.
  intros H. unfold rd, ArraySpec.at_addr. destruct (Z.leb_spec 0 p); [|lia]. apply nth_error_nth'. lia.
Qed.
Lemma wr_some (m : list A) p v : 0 <= p < Z.of_nat (length m) -> wr A m p v = Some (upd m (Z.to_nat p) v).
Proof.
  intros H. unfold wr. destruct (Z.leb_spec 0 p); [|lia]. destruct (Z.ltb_spec p (Z.of_nat (length m))); [|lia]. reflexivity.
Qed.
Lemma mv_some (q : list A) i j : (i < length q)%nat -> (j < length q)%nat ->
  mv A q i j = Some (upd q i (nth j q zero)).
Proof.
  intros Hi Hj. unfold mv. rewrite rd_some by lia. cbn [bind]. rewrite wr_some by lia.
  unfold ArraySpec.at_addr. rewrite !Nat2Z.id. reflexivity.
Qed.

(** padding one line of four *)
Lemma pad_block_spec (q : list A) off n s : (0 < s)%nat -> (1 <= n <= 4)%nat -> (off + 3 * s < length q)%nat ->
  exists q', pad_block A zero q off n s = Some q' /\ length q' = length q /\
    (forall i, (i < 4)%nat -> nth (off + i * s) q' zero = nth (off + pad4 n i * s) q zero) /\
    (forall j, (forall i, (i < 4)%nat -> j <> off + i * s)%nat -> nth j q' zero = nth j q zero).
Proof.
  intros Hs Hn Hq. unfold pad_block.
  assert (n = 1 \/ n = 2 \/ n = 3 \/ n = 4)%nat as [-> | [-> | [-> | ->]]] by lia; cbn [Nat.eqb Nat.leb bind].
  - rewrite mv_some by lia. cbn [bind]. rewrite mv_some by (rewrite ?upd_length'; lia). cbn [bind].
    rewrite mv_some by (rewrite ?upd_length'; lia). eexists. split; [reflexivity|]. split; [rewrite !upd_length'; reflexivity|].
    split.
    + intros i Hi. assert (i = 0 \/ i = 1 \/ i = 2 \/ i = 3)%nat as [-> | [-> | [-> | ->]]] by lia; cbn [pad4 Nat.ltb Nat.leb Nat.eqb Nat.sub];
        repeat (rewrite ?upd_nth_same by (rewrite ?upd_length'; lia); rewrite ?upd_nth_other by nia); try reflexivity.
    + intros j Hj. rewrite !upd_nth_other; [reflexivity|..]; intros E; [apply (Hj 1%nat)|apply (Hj 2%nat)|apply (Hj 3%nat)]; lia.
  - rewrite mv_some by lia. cbn [bind]. rewrite mv_some by (rewrite ?upd_length'; lia). cbn [bind].
    eexists. split; [reflexivity|]. split; [rewrite !upd_length'; reflexivity|].
    split.
    + intros i Hi. assert (i = 0 \/ i = 1 \/ i = 2 \/ i = 3)%nat as [-> | [-> | [-> | ->]]] by lia; cbn [pad4 Nat.ltb Nat.leb Nat.eqb Nat.sub];
        repeat (rewrite ?upd_nth_same by (rewrite ?upd_length'; lia); rewrite ?upd_nth_other by nia); try reflexivity.
    + intros j Hj. rewrite !upd_nth_other; [reflexivity|..]; intros E; [apply (Hj 2%nat)|apply (Hj 3%nat)]; lia.
  - rewrite mv_some by lia. cbn [bind].
    eexists. split; [reflexivity|]. split; [rewrite !upd_length'; reflexivity|].
    split.
    + intros i Hi. assert (i = 0 \/ i = 1 \/ i = 2 \/ i = 3)%nat as [-> | [-> | [-> | ->]]] by lia; cbn [pad4 Nat.ltb Nat.leb Nat.eqb Nat.sub];
        repeat (rewrite ?upd_nth_same by (rewrite ?upd_length'; lia); rewrite ?upd_nth_other by nia); try reflexivity.
    + intros j Hj. rewrite !upd_nth_other; [reflexivity|..]; intros E; [apply (Hj 3%nat)]; lia.
  - exists q. split; [reflexivity|]. split; [reflexivity|]. split; [|reflexivity].
    intros i Hi. unfold pad4. destruct (Nat.ltb_spec i 4); [reflexivity|lia].
Qed.

(** [sets q q' o K v]: q' is q with positions o .. o+K-1 holding v 0 .. v (K-1) *)
Definition sets (q q' : list A) (o K : nat) (v : nat -> A) : Prop :=
  length q' = length q /\
  (forall i, (i < K)%nat -> nth (o + i) q' zero = v i) /\
  (forall j, (j < o \/ o + K <= j)%nat -> nth j q' zero = nth j q zero).

(** padding of a whole level: block of K-entry rows, n of them filled *)
Lemma pads_spec K (q : list A) o n v : (0 < K)%nat -> (1 <= n <= 4)%nat -> (o + 4 * K <= length q)%nat ->
  (forall y i, (y < n)%nat -> (i < K)%nat -> nth (o + y * K + i) q zero = v y i) ->
  exists q', for_ K 0 (fun x q => pad_block A zero q (o + x) n K) q = Some q' /\
    sets q q' o (4 * K) (fun i => v (pad4 n (i / K)) (i mod K)%nat).
Proof.
  intros HK Hn Hq HV.
  destruct (for_inv (fun x q' => length q' = length q /\
     (forall y i, (y < 4)%nat -> (i < x)%nat -> (i < K)%nat -> nth (o + y * K + i) q' zero = v (pad4 n y) i) /\
     (forall y i, (y < 4)%nat -> (x <= i)%nat -> (i < K)%nat -> nth (o + y * K + i) q' zero = nth (o + y * K + i) q zero) /\
     (forall j, (j < o \/ o + 4 * K <= j)%nat -> nth j q' zero = nth j q zero)) K 0
     (fun x q => pad_block A zero q (o + x) n K) q) as (q' & E & L & F1 & _ & F2).
  - conjs; auto. intros; lia.
  - intros x q1 Hx (L & F1 & F2 & F3).
    destruct (pad_block_spec q1 (o + x) n K) as (q2 & E & L2 & G1 & G2); [lia|lia|rewrite L; lia|].
    exists q2. split; [exact E|]. split; [lia|]. split; [|split].
    + intros y i Hy Hi HiK. destruct (Nat.eq_dec i x) as [->|N].
      * replace (o + y * K + x)%nat with (o + x + y * K)%nat by lia. rewrite G1 by lia.
        assert (pad4 n y < n)%nat by (unfold pad4; destruct (Nat.ltb_spec y n); [lia|]; destruct (y =? 3)%nat; lia).
        replace (o + x + pad4 n y * K)%nat with (o + pad4 n y * K + x)%nat by lia.
        rewrite F2 by lia. apply HV; lia.
      * rewrite G2; [apply F1; lia|]. intros k Hk E2.
        assert (y = k) by nia. subst. nia.
    + intros y i Hy Hi HiK. rewrite G2; [apply F2; lia|]. intros k Hk E2. assert (y = k) by nia. subst. nia.
    + intros j Hj. rewrite G2; [apply F3; lia|]. intros k Hk E2. nia.
  - exists q'. split; [exact E|]. split; [exact L|]. split; [|exact F2].
    intros i Hi. rewrite <- (F1 (i / K)%nat (i mod K)%nat).
    + f_equal. rewrite Nat.mul_comm. rewrite <- Nat.add_assoc. f_equal. apply Nat.div_mod. lia.
    + apply Nat.div_lt_upper_bound; lia.
    + apply Nat.mod_upper_bound. lia.
    + apply Nat.mod_upper_bound. lia.
Qed.

(** the filling loop of a level *)
Lemma fill_level (body : nat -> list A * Z -> option (list A * Z)) K n o p s v (q : list A) :
  (0 < K)%nat -> (o + n * K <= length q)%nat ->
  (forall y q1, (y < n)%nat -> length q1 = length q ->
     exists q2, body y (q1, p + s * Z.of_nat y) = Some (q2, p + s * Z.of_nat (Datatypes.S y)) /\
       sets q1 q2 (o + y * K) K (v y)) ->
  exists q', for_ n 0 body (q, p) = Some (q', p + s * Z.of_nat n) /\ length q' = length q /\
    (forall y i, (y < n)%nat -> (i < K)%nat -> nth (o + y * K + i) q' zero = v y i) /\
    (forall j, (j < o \/ o + n * K <= j)%nat -> nth j q' zero = nth j q zero).
Proof.
  intros HK Hq HB.
  destruct (for_inv (fun y st => let '(q', p') := st in p' = p + s * Z.of_nat y /\ length q' = length q /\
     (forall y' i, (y' < y)%nat -> (i < K)%nat -> nth (o + y' * K + i) q' zero = v y' i) /\
     (forall j, (j < o \/ o + y * K <= j)%nat -> nth j q' zero = nth j q zero)) n 0 body (q, p)) as ([q' p'] & E & P & L & F1 & F2).
  - conjs; [lia|reflexivity|intros; lia|reflexivity].
  - intros y [q1 p1] Hy (-> & L & F1 & F2). destruct (HB y q1 ltac:(lia) L) as (q2 & E & L2 & S1 & S2).
    exists (q2, p + s * Z.of_nat (Datatypes.S y)). split; [exact E|]. split; [reflexivity|]. split; [lia|]. split.
    + intros y' i Hy' Hi. destruct (Nat.eq_dec y' y) as [->|N]; [apply S1; lia|].
      rewrite S2 by nia. apply F1; lia.
    + intros j Hj. rewrite S2 by nia. apply F2. nia.
  - subst p'. exists q'. auto.
Qed.

(** one complete level of a partial gather *)
Lemma gather_level (body : nat -> list A * Z -> option (list A * Z)) K n o p s v (q : list A) :
  (0 < K)%nat -> (1 <= n <= 4)%nat -> (o + 4 * K <= length q)%nat ->
  (forall y q1, (y < n)%nat -> length q1 = length q ->
     exists q2, body y (q1, p + s * Z.of_nat y) = Some (q2, p + s * Z.of_nat (Datatypes.S y)) /\
       sets q1 q2 (o + y * K) K (v (p + s * Z.of_nat y))) ->
  exists q1 q', for_ n 0 body (q, p) = Some (q1, p + s * Z.of_nat n) /\
    for_ K 0 (fun x q => pad_block A zero q (o + x) n K) q1 = Some q' /\
    sets q q' o (4 * K) (fun i => v (p + s * Z.of_nat (pad4 n (i / K))) (i mod K)%nat).
Proof.
  intros HK Hn Hq HB.
  destruct (fill_level body K n o p s (fun y => v (p + s * Z.of_nat y)) q HK ltac:(nia) HB) as (q1 & E1 & L1 & F1 & F2).
  destruct (pads_spec K q1 o n (fun y => v (p + s * Z.of_nat y)) HK Hn ltac:(lia) F1) as (q' & E2 & S1 & S2 & S3).
  exists q1, q'. split; [exact E1|]. split; [exact E2|]. split; [lia|]. split; [exact S2|].
  intros j Hj. rewrite S3 by lia. apply F2. nia.
Qed.

(** level 0: one scalar *)
Lemma put_at_spec (m : list A) sx o p (q : list A) : (o < length q)%nat -> 0 <= p < Z.of_nat (length m) ->
  exists q', put_at A m sx o (q, p) = Some (q', p + sx) /\ sets q q' o 1 (fun _ => at_addr m p).
Proof.
  intros Ho Hp. unfold put_at. rewrite rd_some by lia. cbn [bind]. rewrite wr_some by lia. cbn [bind]. rewrite Nat2Z.id.
  eexists. split; [reflexivity|]. split; [apply upd_length'|]. split.
  - intros i Hi. replace (o + i)%nat with o by lia. apply upd_nth_same. lia.
  - intros j Hj. apply upd_nth_other. lia.
Qed.

(** ** partial gathers *)
Section Part.
Variable m : list A.

(** values a sub-block of dimension 1..4 gets *)
Definition v1 (nx : nat) (sx p : Z) (i : nat) : A := at_addr m (p + sx * Z.of_nat (pad4 nx i)).
Definition v2 nx ny sx sy p i : A := v1 nx sx (p + sy * Z.of_nat (pad4 ny (i / 4))) (i mod 4).
Definition v3 nx ny nz sx sy sz p i : A := v2 nx ny sx sy (p + sz * Z.of_nat (pad4 nz (i / 16))) (i mod 16).
Definition v4 nx ny nz nw sx sy sz sw p i : A := v3 nx ny nz sx sy sz (p + sw * Z.of_nat (pad4 nw (i / 64))) (i mod 64).

Definition ok_addr (p : Z) : Prop := 0 <= p < Z.of_nat (length m).
Definition ok1 nx sx p := forall x, (x < nx)%nat -> ok_addr (p + sx * Z.of_nat x).
Definition ok2 nx ny sx sy p := forall y, (y < ny)%nat -> ok1 nx sx (p + sy * Z.of_nat y).
Definition ok3 nx ny nz sx sy sz p := forall z, (z < nz)%nat -> ok2 nx ny sx sy (p + sz * Z.of_nat z).
Definition ok4 nx ny nz nw sx sy sz sw p := forall w, (w < nw)%nat -> ok3 nx ny nz sx sy sz (p + sw * Z.of_nat w).

Lemma sets_ext q q' o K v w : (forall i, (i < K)%nat -> v i = w i) -> sets q q' o K v -> sets q q' o K w.
Proof. intros H (L & S1 & S2). split; [exact L|]. split; [|exact S2]. intros i Hi. rewrite S1 by exact Hi. auto. Qed.

Lemma row_spec nx sx p o (q : list A) : (1 <= nx <= 4)%nat -> (o + 4 <= length q)%nat -> ok1 nx sx p ->
  exists q1 q', for_ nx 0 (fun x st => put_at A m sx (o + x) st) (q, p) = Some (q1, p + sx * Z.of_nat nx) /\
    pad_block A zero q1 o nx 1 = Some q' /\ sets q q' o 4 (v1 nx sx p).
Proof.
  intros Hn Hq OK.
  destruct (gather_level (fun x st => put_at A m sx (o + x) st) 1 nx o p sx (fun p _ => at_addr m p) q)
    as (q1 & q' & E1 & E2 & S); [lia|lia|lia| |].
  - intros y q1 Hy L. destruct (put_at_spec m sx (o + y) (p + sx * Z.of_nat y) q1) as (q2 & E & S); [lia|apply OK; lia|].
    exists q2. split; [rewrite E; f_equal; f_equal; lia|]. rewrite Nat.mul_1_r. exact S.
  - exists q1, q'. split; [exact E1|]. cbn [for_] in E2.
    destruct (pad_block A zero q1 (o + 0) nx 1) eqn:E3; [|discriminate]. cbn [bind] in E2. rewrite Nat.add_0_r in E3.
    split; [congruence|]. eapply sets_ext; [|exact S]. intros i Hi. unfold v1. rewrite Nat.div_1_r. reflexivity.
Qed.

Lemma plane_spec nx ny sx sy p o (q : list A) : (1 <= nx <= 4)%nat -> (1 <= ny <= 4)%nat -> (o + 16 <= length q)%nat ->
  ok2 nx ny sx sy p ->
  exists q1 q', for_ ny 0 (fun y st =>
          st <- for_ nx 0 (fun x st => put_at A m sx (o + 4 * y + x) st) st;
          st <- on_block A (fun q => pad_block A zero q (o + 4 * y) nx 1) st;
          move A (sy - Z.of_nat nx * sx) st) (q, p) = Some (q1, p + sy * Z.of_nat ny) /\
    for_ 4 0 (fun x q => pad_block A zero q (o + x) ny 4) q1 = Some q' /\ sets q q' o 16 (v2 nx ny sx sy p).
Proof.
  intros Hx Hy Hq OK.
  apply (gather_level (fun y st => _) 4 ny o p sy (v1 nx sx) q); [lia|lia|lia|].
  intros y q1 Hy2 L. destruct (row_spec nx sx (p + sy * Z.of_nat y) (o + 4 * y) q1) as (q2 & q3 & E1 & E2 & S);
    [lia|lia|apply OK; lia|].
  exists q3. rewrite E1. cbn [bind]. unfold on_block. rewrite E2. cbn [bind]. unfold move.
  split; [f_equal; f_equal; lia|]. rewrite (Nat.mul_comm y 4). exact S.
Qed.

Lemma cube_spec nx ny nz sx sy sz p o (q : list A) :
  (1 <= nx <= 4)%nat -> (1 <= ny <= 4)%nat -> (1 <= nz <= 4)%nat -> (o + 64 <= length q)%nat ->
  ok3 nx ny nz sx sy sz p ->
  exists q1 q', for_ nz 0 (fun z st =>
          st <- for_ ny 0 (fun y st =>
                  st <- for_ nx 0 (fun x st => put_at A m sx (o + 16 * z + 4 * y + x) st) st;
                  st <- on_block A (fun q => pad_block A zero q (o + 16 * z + 4 * y) nx 1) st;
                  move A (sy - Z.of_nat nx * sx) st) st;
          st <- on_block A (for_ 4 0 (fun x q => pad_block A zero q (o + 16 * z + x) ny 4)) st;
          move A (sz - Z.of_nat ny * sy) st) (q, p) = Some (q1, p + sz * Z.of_nat nz) /\
    for_ 4 0 (fun y => for_ 4 0 (fun x q => pad_block A zero q (o + 4 * y + x) nz 16)) q1 = Some q' /\
    sets q q' o 64 (v3 nx ny nz sx sy sz p).
Proof.
  intros Hx Hy Hz Hq OK.
  destruct (gather_level (fun z st => 
          st <- for_ ny 0 (fun y st =>
                  st <- for_ nx 0 (fun x st => put_at A m sx (o + 16 * z + 4 * y + x) st) st;
                  st <- on_block A (fun q => pad_block A zero q (o + 16 * z + 4 * y) nx 1) st;
                  move A (sy - Z.of_nat nx * sx) st) st;
          st <- on_block A (for_ 4 0 (fun x q => pad_block A zero q (o + 16 * z + x) ny 4)) st;
          move A (sz - Z.of_nat ny * sy) st) 16 nz o p sz (v2 nx ny sx sy) q) as (q1 & q' & E1 & E2 & S); [lia|lia|lia| |].
  - intros z q1 Hz2 L. destruct (plane_spec nx ny sx sy (p + sz * Z.of_nat z) (o + 16 * z) q1) as (q2 & q3 & E1 & E2 & S);
      [lia|lia|lia|apply OK; lia|].
    exists q3. rewrite E1. cbn [bind]. unfold on_block. rewrite E2. cbn [bind]. unfold move.
    split; [f_equal; f_equal; lia|]. rewrite (Nat.mul_comm z 16). exact S.
  - exists q1, q'. split; [exact E1|]. split; [|exact S].
    rewrite (for_nest 4 4 (fun x y q => pad_block A zero q (o + 4 * y + x) nz 16)) by lia. rewrite <- E2.
    apply for_ext. intros j s Hj. f_equal. lia.
Qed.

Lemma hyper_spec nx ny nz nw sx sy sz sw p (q : list A) :
  (1 <= nx <= 4)%nat -> (1 <= ny <= 4)%nat -> (1 <= nz <= 4)%nat -> (1 <= nw <= 4)%nat -> (length q = 256)%nat ->
  ok4 nx ny nz nw sx sy sz sw p ->
  exists q', gather_partial4 A zero q m p nx ny nz nw sx sy sz sw = Some q' /\
    sets q q' 0 256 (v4 nx ny nz nw sx sy sz sw p).
Proof.
  intros Hx Hy Hz Hw Hq OK. unfold gather_partial4.
  destruct (gather_level (fun w st =>
          st <- for_ nz 0 (fun z st =>
                  st <- for_ ny 0 (fun y st =>
                          st <- for_ nx 0 (fun x st => put_at A m sx (64 * w + 16 * z + 4 * y + x) st) st;
                          st <- on_block A (fun q => pad_block A zero q (64 * w + 16 * z + 4 * y) nx 1) st;
                          move A (sy - Z.of_nat nx * sx) st) st;
                  st <- on_block A (for_ 4 0 (fun x q => pad_block A zero q (64 * w + 16 * z + x) ny 4)) st;
                  move A (sz - Z.of_nat ny * sy) st) st;
          st <- on_block A (for_ 4 0 (fun y => for_ 4 0 (fun x q => pad_block A zero q (64 * w + 4 * y + x) nz 16))) st;
          move A (sw - Z.of_nat nz * sz) st) 64 nw 0 p sw (v3 nx ny nz sx sy sz) q) as (q1 & q' & E1 & E2 & S); [lia|lia|lia| |].
  - intros w q1 Hw2 L.
    destruct (cube_spec nx ny nz sx sy sz (p + sw * Z.of_nat w) (64 * w) q1) as (q2 & q3 & E1 & E2 & S);
      [lia|lia|lia|lia|apply OK; lia|].
    exists q3. rewrite E1. cbn [bind]. unfold on_block. rewrite E2. cbn [bind]. unfold move.
    split; [f_equal; f_equal; lia|]. rewrite (Nat.mul_comm w 64). exact S.
  - exists q'. rewrite E1. cbn [bind fst]. split; [|exact S]. rewrite <- E2.
    transitivity (for_ 4 0 (fun z => for_ 16 0 (fun k q => pad_block A zero q (16 * z + k) nw 64)) q1).
    + apply for_ext. intros z s Hz2.
      rewrite (for_nest 4 4 (fun x y q => pad_block A zero q (16 * z + 4 * y + x) nw 64)) by lia.
      apply for_ext. intros k t Hk. f_equal. lia.
    + rewrite (for_nest 16 4 (fun k z q => pad_block A zero q (16 * z + k) nw 64)) by lia.
      apply for_ext. intros j s Hj. f_equal. lia.
Qed.

(** the finished block as a list *)
Lemma sets_all q q' N v : length q = N -> sets q q' 0 N v -> q' = map v (seq 0 N).
Proof.
  intros L (L' & S & _). apply nth_ext with (d := zero) (d' := v 0%nat).
  - rewrite map_length, seq_length. lia.
  - intros i Hi. rewrite map_nth, seq_nth by lia. apply (S i). lia.
Qed.

Lemma gather_partial1_ok nx sx p (q : list A) : (1 <= nx <= 4)%nat -> length q = 4%nat -> ok1 nx sx p ->
  gather_partial1 A zero q m p nx sx = Some (map (v1 nx sx p) (seq 0 4)).
Proof.
  intros Hx L OK. destruct (row_spec nx sx p 0 q) as (q1 & q' & E1 & E2 & S); [lia|lia|exact OK|].
  unfold gather_partial1. cbn [Nat.add] in E1. rewrite E1. cbn [bind fst]. rewrite E2. f_equal. eapply sets_all; eauto.
Qed.
Lemma gather_partial2_ok nx ny sx sy p (q : list A) : (1 <= nx <= 4)%nat -> (1 <= ny <= 4)%nat ->
  length q = 16%nat -> ok2 nx ny sx sy p ->
  gather_partial2 A zero q m p nx ny sx sy = Some (map (v2 nx ny sx sy p) (seq 0 16)).
Proof.
  intros Hx Hy L OK. destruct (plane_spec nx ny sx sy p 0 q) as (q1 & q' & E1 & E2 & S); [lia|lia|lia|exact OK|].
  unfold gather_partial2. cbn [Nat.add] in E1, E2. rewrite E1. cbn [bind fst]. rewrite E2. f_equal. eapply sets_all; eauto.
Qed.
Lemma gather_partial3_ok nx ny nz sx sy sz p (q : list A) : (1 <= nx <= 4)%nat -> (1 <= ny <= 4)%nat -> (1 <= nz <= 4)%nat ->
  length q = 64%nat -> ok3 nx ny nz sx sy sz p ->
  gather_partial3 A zero q m p nx ny nz sx sy sz = Some (map (v3 nx ny nz sx sy sz p) (seq 0 64)).
Proof.
  intros Hx Hy Hz L OK. destruct (cube_spec nx ny nz sx sy sz p 0 q) as (q1 & q' & E1 & E2 & S); [lia|lia|lia|lia|exact OK|].
  unfold gather_partial3. cbn [Nat.add] in E1, E2. rewrite E1. cbn [bind fst]. rewrite E2. f_equal. eapply sets_all; eauto.
Qed.
Lemma gather_partial4_ok nx ny nz nw sx sy sz sw p (q : list A) :
  (1 <= nx <= 4)%nat -> (1 <= ny <= 4)%nat -> (1 <= nz <= 4)%nat -> (1 <= nw <= 4)%nat ->
  length q = 256%nat -> ok4 nx ny nz nw sx sy sz sw p ->
  gather_partial4 A zero q m p nx ny nz nw sx sy sz sw = Some (map (v4 nx ny nz nw sx sy sz sw p) (seq 0 256)).
Proof.
  intros Hx Hy Hz Hw L OK. destruct (hyper_spec nx ny nz nw sx sy sz sw p q) as (q' & E1 & S); auto.
  rewrite E1. f_equal. eapply sets_all; eauto.
Qed.

(** ** full gathers *)
Lemma get_level (G : list A * Z -> option (list A * Z)) K adv (v : Z -> nat -> A) p s q :
  (forall y q1, (y < 4)%nat -> G (q1, p + s * Z.of_nat y) = Some (q1 ++ map (v (p + s * Z.of_nat y)) (seq 0 K), p + s * Z.of_nat y + adv)) ->
  (0 < K)%nat ->
  for_ 4 0 (fun _ st => st <- G st; let '(q, p) := st in Some (q, p + (s - adv))) (q, p) =
    Some (q ++ map (fun i => v (p + s * Z.of_nat (i / K)) (i mod K)%nat) (seq 0 (4 * K)), p + s * 4).
Proof.
  intros H HK. cbn [for_].
  assert (M : forall a, map (fun i => v (p + s * Z.of_nat (i / K)) (i mod K)%nat) (seq (a * K) K) = map (v (p + s * Z.of_nat a)) (seq 0 K)).
  { intros a. rewrite (seq_from (a * K)), map_map. apply map_ext_in. intros i Hi. apply in_seq in Hi.
    rewrite Nat.add_comm, Nat.mod_add, Nat.div_add, Nat.mod_small, Nat.div_small by lia. reflexivity. }
  replace (4 * K)%nat with (0 * K + K + K + K + K)%nat by lia. rewrite !seq_app, !map_app.
  pose proof (M 0%nat) as M0. pose proof (M 1%nat) as M1. pose proof (M 2%nat) as M2. pose proof (M 3%nat) as M3.
  rewrite Nat.mul_0_l in *. cbn [seq map app Nat.add]. rewrite M0.
  replace (seq K K) with (seq (1 * K) K) by (f_equal; lia). rewrite M1.
  replace (seq (K + K) K) with (seq (2 * K) K) by (f_equal; lia). rewrite M2.
  replace (seq (K + K + K) K) with (seq (3 * K) K) by (f_equal; lia). rewrite M3.
  pose proof (H 0%nat) as H0. pose proof (H 1%nat) as H1. pose proof (H 2%nat) as H2. pose proof (H 3%nat) as H3.
  replace (p + s * Z.of_nat 0) with p in * by lia.
  rewrite H0 by lia. cbn [bind]. replace (p + adv + (s - adv)) with (p + s * Z.of_nat 1) by lia.
  rewrite H1 by lia. cbn [bind]. replace (p + s * Z.of_nat 1 + adv + (s - adv)) with (p + s * Z.of_nat 2) by lia.
  rewrite H2 by lia. cbn [bind]. replace (p + s * Z.of_nat 2 + adv + (s - adv)) with (p + s * Z.of_nat 3) by lia.
  rewrite H3 by lia. cbn [bind]. replace (p + s * Z.of_nat 3 + adv + (s - adv)) with (p + s * 4) by lia.
  rewrite <- !app_assoc. reflexivity.
Qed.

Ltac same_map s := rewrite (Z.mul_comm s 4);
  match goal with |- Some (_ ++ ?a, _) = Some (_ ++ ?b, _) => replace a with b; [reflexivity|symmetry] end.
Lemma get_row sx p q : ok1 4 sx p -> for_ 4 0 (fun x st => get A m sx st) (q, p) = Some (q ++ map (v1 4 sx p) (seq 0 4), p + 4 * sx).
Proof.
  intros OK. cbn [for_]. unfold get.
  pose proof (OK 0%nat ltac:(lia)) as O0. pose proof (OK 1%nat ltac:(lia)) as O1.
  pose proof (OK 2%nat ltac:(lia)) as O2. pose proof (OK 3%nat ltac:(lia)) as O3. unfold ok_addr in *.
  rewrite rd_some by lia. cbn [bind]. rewrite rd_some by lia. cbn [bind]. rewrite rd_some by lia. cbn [bind].
  rewrite rd_some by lia. cbn [bind].
  cbn [seq map]. rewrite <- !app_assoc. cbn [app]. unfold v1.
  f_equal. f_equal; [|lia]. cbn [pad4 Nat.ltb Nat.leb]. repeat (f_equal; try lia).
Qed.
Lemma get_plane sx sy p q : ok2 4 4 sx sy p ->
  for_ 4 0 (fun y st => st <- for_ 4 0 (fun x st => get A m sx st) st;
         let '(q, p) := st in Some (q, p + (sy - 4 * sx))) (q, p) = Some (q ++ map (v2 4 4 sx sy p) (seq 0 16), p + 4 * sy).
Proof.
  intros OK. rewrite (get_level (fun st => for_ 4 0 (fun x st => get A m sx st) st) 4 (4 * sx) (v1 4 sx)); [|intros; apply get_row, OK; lia|lia].
  same_map sy.  apply map_ext_in. intros i Hi. apply in_seq in Hi. unfold v2. do 3 f_equal.
  unfold pad4. destruct (Nat.ltb_spec (i / 4) 4); lia.
Qed.
Lemma get_cube sx sy sz p q : ok3 4 4 4 sx sy sz p ->
  for_ 4 0 (fun z st =>
         st <- for_ 4 0 (fun y st =>
                 st <- for_ 4 0 (fun x st => get A m sx st) st;
                 let '(q, p) := st in Some (q, p + (sy - 4 * sx))) st;
         let '(q, p) := st in Some (q, p + (sz - 4 * sy))) (q, p) = Some (q ++ map (v3 4 4 4 sx sy sz p) (seq 0 64), p + 4 * sz).
Proof.
  intros OK. rewrite (get_level (fun st => for_ 4 0 (fun y st =>
                 st <- for_ 4 0 (fun x st => get A m sx st) st;
                 let '(q, p) := st in Some (q, p + (sy - 4 * sx))) st) 16 (4 * sy) (v2 4 4 sx sy)); [|intros; apply get_plane, OK; lia|lia].
  same_map sz.  apply map_ext_in. intros i Hi. apply in_seq in Hi. unfold v3. do 3 f_equal.
  unfold pad4. destruct (Nat.ltb_spec (i / 16) 4); lia.
Qed.
Lemma gather1_ok sx p : ok1 4 sx p -> gather1 A m p sx = Some (map (v1 4 sx p) (seq 0 4)).
Proof. intros OK. unfold gather1. rewrite get_row by exact OK. reflexivity. Qed.
Lemma gather2_ok sx sy p : ok2 4 4 sx sy p -> gather2 A m p sx sy = Some (map (v2 4 4 sx sy p) (seq 0 16)).
Proof. intros OK. unfold gather2. rewrite get_plane by exact OK. reflexivity. Qed.
Lemma gather3_ok sx sy sz p : ok3 4 4 4 sx sy sz p -> gather3 A m p sx sy sz = Some (map (v3 4 4 4 sx sy sz p) (seq 0 64)).
Proof. intros OK. unfold gather3. rewrite get_cube by exact OK. reflexivity. Qed.
Lemma gather4_ok sx sy sz sw p : ok4 4 4 4 4 sx sy sz sw p ->
  gather4 A m p sx sy sz sw = Some (map (v4 4 4 4 4 sx sy sz sw p) (seq 0 256)).
Proof.
  intros OK. unfold gather4.
  rewrite (get_level (fun st => for_ 4 0 (fun z st =>
         st <- for_ 4 0 (fun y st =>
                 st <- for_ 4 0 (fun x st => get A m sx st) st;
                 let '(q, p) := st in Some (q, p + (sy - 4 * sx))) st;
         let '(q, p) := st in Some (q, p + (sz - 4 * sy))) st) 64 (4 * sz) (v3 4 4 4 sx sy sz)); [|intros; apply get_cube, OK; lia|lia].
  cbn [bind fst app]. apply (f_equal Some). apply map_ext_in. intros i Hi. apply in_seq in Hi. unfold v4. do 3 f_equal.
  unfold pad4. destruct (Nat.ltb_spec (i / 64) 4); lia.
Qed.
End Part.
End Arr.
