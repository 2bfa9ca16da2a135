(** Scatter, and the arrays as sequences of blocks. *)
From Coq Require Import ZArith List Bool Arith Lia ZifyNat.
From Verif Require Import ListAux Bitstream ZfpXform ZfpArray ArraySpec XformProofs ArrayProofs.
Import ListNotations.
Local Open Scope Z_scope.
Ltac Zify.zify_post_hook ::= Z.to_euclidean_division_equations.

Section Scat.
Variable A : Type.
Variable zero : A.
Notation at_addr := (at_addr zero).

Definition writes (m : list A) (L : list (Z * A)) : list A :=
  fold_left (fun m '(a, v) => upd m (Z.to_nat a) v) L m.

Lemma writes_length L m : length (writes m L) = length m.
Proof. revert m. induction L as [|[a v] L IH]; intros m; cbn; [reflexivity|]. unfold writes in IH. rewrite IH. apply upd_length'. Qed.
Lemma writes_app L1 L2 m : writes m (L1 ++ L2) = writes (writes m L1) L2.
Proof. apply fold_left_app. Qed.

Lemma writes_other L m a : (forall b v, In (b, v) L -> 0 <= b) -> 0 <= a -> (forall v, ~ In (a, v) L) ->
  at_addr (writes m L) a = at_addr m a.
Proof.
  revert m. induction L as [|[b v] L IH]; intros m HP Ha HN; [reflexivity|]. cbn [writes fold_left].
  fold (writes (upd m (Z.to_nat b) v) L). rewrite IH; [|intros b' v' I; apply (HP b' v'); right; exact I|exact Ha|intros v' I; apply (HN v'); right; exact I].
  unfold ArraySpec.at_addr. apply upd_nth_other. intros E. apply (HN v). left. f_equal.
  specialize (HP b v ltac:(left; reflexivity)). lia.
Qed.
Lemma writes_same L m a v : (forall b v, In (b, v) L -> 0 <= b < Z.of_nat (length m)) ->
  In (a, v) L -> (forall v', In (a, v') L -> v' = v) -> at_addr (writes m L) a = v.
Proof.
  revert m. induction L as [|[b w] L IH]; intros m HP I HU; [destruct I|]. cbn [writes fold_left].
  fold (writes (upd m (Z.to_nat b) w) L).
  assert (D : (exists v', In (a, v') L) \/ ~ (exists v', In (a, v') L)).
  { clear. induction L as [|[c x] L IH]; [right; intros [? []]|]. destruct (Z.eq_dec c a) as [->|N].
    - left. exists x. left. reflexivity.
    - destruct IH as [[v' I]|H]; [left; exists v'; right; exact I|right; intros [v' [E|I]]; [congruence|apply H; eauto]]. }
  destruct D as [[v' I']|N].
  - assert (v' = v) by (apply HU; right; exact I'). subst v'. apply IH.
    + intros c x J. rewrite upd_length'. apply (HP c x). right. exact J.
    + exact I'.
    + intros x J. apply HU. right. exact J.
  - destruct I as [E|I]; [|exfalso; apply N; eauto].
    assert (b = a /\ w = v) as [-> ->] by (inversion E; auto).
    pose proof (HP a v ltac:(left; reflexivity)) as R.
    rewrite writes_other; [|intros c x J; apply (HP c x); right; exact J|lia|intros x J; apply N; eauto].
    unfold ArraySpec.at_addr. apply upd_nth_same. lia.
Qed.

Section Blk.
Variable q : list A.

Definition L0 (p : Z) (i : nat) : list (Z * A) := [(p, nth i q zero)].
Definition lev (L : Z -> nat -> list (Z * A)) (K n : nat) (s : Z) (p : Z) (i : nat) : list (Z * A) :=
  flat_map (fun y => L (p + s * Z.of_nat y) (i + K * y)%nat) (seq 0 n).
Definition L1 nx sx := lev L0 1 nx sx.
Definition L2 nx ny sx sy := lev (L1 nx sx) 4 ny sy.
Definition L3 nx ny nz sx sy sz := lev (L2 nx ny sx sy) 16 nz sz.
Definition L4 nx ny nz nw sx sy sz sw := lev (L3 nx ny nz sx sy sz) 64 nw sw.

(** [step G L adv K p i]: from pointer p and block position i, G performs the writes L p i *)
Lemma level_ok (G : list A * Z * Z -> option (list A * Z * Z)) L adv k K n s p i N :
  (forall y m, (y < n)%nat -> length m = N ->
     G (m, p + s * Z.of_nat y, Z.of_nat (i + K * y)) =
       Some (writes m (L (p + s * Z.of_nat y) (i + K * y)%nat), p + s * Z.of_nat y + adv, Z.of_nat (i + K * y) + k)) ->
  forall m, length m = N ->
  for_ n 0 (fun _ st => st <- G st; move2 A (s - adv) (Z.of_nat K - k) st) (m, p, Z.of_nat i) =
    Some (writes m (lev L K n s p i), p + s * Z.of_nat n, Z.of_nat (i + K * n)).
Proof.
  intros HB m Lm.
  destruct (for_inv (fun y st => st = (writes m (flat_map (fun y => L (p + s * Z.of_nat y) (i + K * y)%nat) (seq 0 y)),
     p + s * Z.of_nat y, Z.of_nat (i + K * y))) n 0
     (fun _ st => st <- G st; move2 A (s - adv) (Z.of_nat K - k) st) (m, p, Z.of_nat i)) as (st & E & ->).
  - cbn [seq flat_map]. rewrite Nat.mul_0_r, Nat.add_0_r. replace (p + s * Z.of_nat 0) with p by lia. reflexivity.
  - intros y st Hy ->. rewrite HB by (rewrite ?writes_length; lia). cbn [bind move2]. eexists. split; [reflexivity|].
    replace (Datatypes.S y) with (y + 1)%nat by lia. rewrite seq_app, flat_map_app. cbn [seq flat_map Nat.add]. rewrite app_nil_r, writes_app.
    f_equal; [f_equal|]; lia.
  - exact E.
Qed.

Definition okw (N : nat) (p : Z) := 0 <= p < Z.of_nat N.

Lemma store_ok N sx p i m : (i < length q)%nat -> okw N p -> length m = N ->
  store A q sx (m, p, Z.of_nat i) = Some (writes m (L0 p i), p + sx, Z.of_nat i + 1).
Proof.
  intros Hi Hp L. unfold store. rewrite (rd_some A zero) by lia. cbn [bind]. unfold okw in Hp. rewrite wr_some by lia. cbn [bind].
  unfold writes, L0, ArraySpec.at_addr. rewrite Nat2Z.id. reflexivity.
Qed.

Lemma row_store nx sx p i N : (nx <= 4)%nat -> (i + nx <= length q)%nat -> (forall x, (x < nx)%nat -> okw N (p + sx * Z.of_nat x)) ->
  forall m, length m = N ->
  for_ nx 0 (fun x => store A q sx) (m, p, Z.of_nat i) = Some (writes m (L1 nx sx p i), p + sx * Z.of_nat nx, Z.of_nat (i + nx)).
Proof.
  intros Hn Hq OK m Lm.
  pose proof (level_ok (fun st => store A q sx st) L0 sx 1 1 nx sx p i N) as H.
  replace (i + nx)%nat with (i + 1 * nx)%nat by lia. unfold L1. rewrite <- H with (m := m); [|intros y m' Hy L'; apply (store_ok N); auto; lia|exact Lm].
  apply for_ext. intros j [[m' p'] i'] _. destruct (store A q sx (m', p', i')) as [[[a b] c]|]; [|reflexivity].
  cbn [bind move2]. f_equal. f_equal; [f_equal|]; lia.
Qed.

Lemma plane_store nx ny sx sy k p i N : (nx <= 4)%nat -> (ny <= 4)%nat -> (i + 4 * ny <= length q)%nat ->
  (forall y x, (y < ny)%nat -> (x < nx)%nat -> okw N (p + sy * Z.of_nat y + sx * Z.of_nat x)) ->
  k = 4 - Z.of_nat nx ->
  forall m, length m = N ->
  for_ ny 0 (fun y st => st <- for_ nx 0 (fun x => store A q sx) st; move2 A (sy - Z.of_nat nx * sx) k st) (m, p, Z.of_nat i) =
    Some (writes m (L2 nx ny sx sy p i), p + sy * Z.of_nat ny, Z.of_nat (i + 4 * ny)).
Proof.
  intros Hx Hy Hq OK -> m Lm.
  pose proof (level_ok (fun st => for_ nx 0 (fun x => store A q sx) st) (L1 nx sx) (Z.of_nat nx * sx) (Z.of_nat nx) 4 ny sy p i N) as H.
  unfold L2. rewrite <- H with (m := m); [reflexivity| |exact Lm].
  intros y m' Hy' L'. rewrite (row_store nx sx _ _ N); [f_equal; f_equal; [f_equal|]; lia|lia|lia| |exact L'].
  intros x Hx'. apply OK; assumption.
Qed.

Lemma cube_store nx ny nz sx sy sz k k2 p i N : (nx <= 4)%nat -> (ny <= 4)%nat -> (nz <= 4)%nat -> (i + 16 * nz <= length q)%nat ->
  (forall z y x, (z < nz)%nat -> (y < ny)%nat -> (x < nx)%nat -> okw N (p + sz * Z.of_nat z + sy * Z.of_nat y + sx * Z.of_nat x)) ->
  k = 4 - Z.of_nat nx -> k2 = 4 * (4 - Z.of_nat ny) ->
  forall m, length m = N ->
  for_ nz 0 (fun z st =>
          st <- for_ ny 0 (fun y st =>
                  st <- for_ nx 0 (fun x => store A q sx) st;
                  move2 A (sy - Z.of_nat nx * sx) k st) st;
          move2 A (sz - Z.of_nat ny * sy) k2 st) (m, p, Z.of_nat i) =
    Some (writes m (L3 nx ny nz sx sy sz p i), p + sz * Z.of_nat nz, Z.of_nat (i + 16 * nz)).
Proof.
  intros Hx Hy Hz Hq OK Hk -> m Lm.
  pose proof (level_ok (fun st => for_ ny 0 (fun y st =>
                  st <- for_ nx 0 (fun x => store A q sx) st;
                  move2 A (sy - Z.of_nat nx * sx) k st) st) (L2 nx ny sx sy) (Z.of_nat ny * sy) (4 * Z.of_nat ny) 16 nz sz p i N) as H.
  unfold L3. replace (4 * (4 - Z.of_nat ny)) with (Z.of_nat 16 - 4 * Z.of_nat ny) by lia. rewrite <- H with (m := m); [reflexivity| |exact Lm].
  intros z m' Hz' L'. rewrite (plane_store nx ny sx sy k _ _ N); [f_equal; f_equal; [f_equal|]; lia|lia|lia|lia| |exact Hk|exact L'].
  intros y x Hy' Hx'. apply OK; assumption.
Qed.

Lemma hyper_store nx ny nz nw sx sy sz sw k k2 k3 p N : (nx <= 4)%nat -> (ny <= 4)%nat -> (nz <= 4)%nat -> (nw <= 4)%nat ->
  (64 * nw <= length q)%nat ->
  (forall w z y x, (w < nw)%nat -> (z < nz)%nat -> (y < ny)%nat -> (x < nx)%nat ->
     okw N (p + sw * Z.of_nat w + sz * Z.of_nat z + sy * Z.of_nat y + sx * Z.of_nat x)) ->
  k = 4 - Z.of_nat nx -> k2 = 4 * (4 - Z.of_nat ny) -> k3 = 16 * (4 - Z.of_nat nz) ->
  forall m, length m = N ->
  for_ nw 0 (fun w st =>
          st <- for_ nz 0 (fun z st =>
                  st <- for_ ny 0 (fun y st =>
                          st <- for_ nx 0 (fun x => store A q sx) st;
                          move2 A (sy - Z.of_nat nx * sx) k st) st;
                  move2 A (sz - Z.of_nat ny * sy) k2 st) st;
          move2 A (sw - Z.of_nat nz * sz) k3 st) (m, p, 0) =
    Some (writes m (L4 nx ny nz nw sx sy sz sw p 0), p + sw * Z.of_nat nw, Z.of_nat (0 + 64 * nw)).
Proof.
  intros Hx Hy Hz Hw Hq OK Hk Hk2 -> m Lm.
  pose proof (level_ok (fun st => for_ nz 0 (fun z st =>
                  st <- for_ ny 0 (fun y st =>
                          st <- for_ nx 0 (fun x => store A q sx) st;
                          move2 A (sy - Z.of_nat nx * sx) k st) st;
                  move2 A (sz - Z.of_nat ny * sy) k2 st) st) (L3 nx ny nz sx sy sz) (Z.of_nat nz * sz) (16 * Z.of_nat nz) 64 nw sw p 0 N) as H.
  unfold L4. replace (16 * (4 - Z.of_nat nz)) with (Z.of_nat 64 - 16 * Z.of_nat nz) by lia. rewrite <- H with (m := m); [reflexivity| |exact Lm].
  intros w m' Hw' L'. rewrite (cube_store nx ny nz sx sy sz k k2 _ _ N); [f_equal; f_equal; [f_equal|]; lia|lia|lia|lia|lia| |exact Hk|exact Hk2|exact L'].
  intros z y x Hz' Hy' Hx'. apply OK; assumption.
Qed.

(** membership *)
Lemma in_lev L K n s p i a v : In (a, v) (lev L K n s p i) <-> exists y, (y < n)%nat /\ In (a, v) (L (p + s * Z.of_nat y) (i + K * y)%nat).
Proof.
  unfold lev. rewrite in_flat_map. split; intros (y & H); exists y; rewrite in_seq in *; intuition lia.
Qed.
Lemma in_L1 nx sx p i a v : In (a, v) (L1 nx sx p i) <->
  exists x, (x < nx)%nat /\ a = p + sx * Z.of_nat x /\ v = nth (i + x) q zero.
Proof.
  unfold L1. rewrite in_lev. unfold L0. split.
  - intros (y & Hy & [E|[]]). exists y. split; [exact Hy|]. rewrite Nat.mul_1_l in E. split; congruence.
  - intros (x & Hx & -> & ->). exists x. split; [exact Hx|]. left. rewrite Nat.mul_1_l. reflexivity.
Qed.
Lemma in_L2 nx ny sx sy p i a v : In (a, v) (L2 nx ny sx sy p i) <->
  exists x y, (x < nx)%nat /\ (y < ny)%nat /\ a = p + sx * Z.of_nat x + sy * Z.of_nat y /\ v = nth (i + x + 4 * y) q zero.
Proof.
  unfold L2. rewrite in_lev. setoid_rewrite in_L1. split.
  - intros (y & Hy & x & Hx & -> & ->). exists x, y. repeat split; auto; [lia|f_equal; lia].
  - intros (x & y & Hx & Hy & -> & ->). exists y. split; [exact Hy|]. exists x. repeat split; auto; [lia|f_equal; lia].
Qed.
Lemma in_L3 nx ny nz sx sy sz p i a v : In (a, v) (L3 nx ny nz sx sy sz p i) <->
  exists x y z, (x < nx)%nat /\ (y < ny)%nat /\ (z < nz)%nat /\
    a = p + sx * Z.of_nat x + sy * Z.of_nat y + sz * Z.of_nat z /\ v = nth (i + x + 4 * y + 16 * z) q zero.
Proof.
  unfold L3. rewrite in_lev. setoid_rewrite in_L2. split.
  - intros (z & Hz & x & y & Hx & Hy & -> & ->). exists x, y, z. repeat split; auto; [lia|f_equal; lia].
  - intros (x & y & z & Hx & Hy & Hz & -> & ->). exists z. split; [exact Hz|]. exists x, y. repeat split; auto; [lia|f_equal; lia].
Qed.
Lemma in_L4 nx ny nz nw sx sy sz sw p i a v : In (a, v) (L4 nx ny nz nw sx sy sz sw p i) <->
  exists x y z w, (x < nx)%nat /\ (y < ny)%nat /\ (z < nz)%nat /\ (w < nw)%nat /\
    a = p + sx * Z.of_nat x + sy * Z.of_nat y + sz * Z.of_nat z + sw * Z.of_nat w /\
    v = nth (i + x + 4 * y + 16 * z + 64 * w) q zero.
Proof.
  unfold L4. rewrite in_lev. setoid_rewrite in_L3. split.
  - intros (w & Hw & x & y & z & Hx & Hy & Hz & -> & ->). exists x, y, z, w. repeat split; auto; [lia|f_equal; lia].
  - intros (x & y & z & w & Hx & Hy & Hz & Hw & -> & ->). exists w. split; [exact Hw|]. exists x, y, z. repeat split; auto; [lia|f_equal; lia].
Qed.

(** the scatter functions *)
Variable m : list A.
Let N := length m.

Lemma scatter_partial1_ok nx sx p : (nx <= 4)%nat -> (length q = 4)%nat ->
  (forall x, (x < nx)%nat -> okw N (p + sx * Z.of_nat x)) ->
  scatter_partial1 A q m p nx sx = Some (writes m (L1 nx sx p 0)).
Proof.
  intros Hx Hq OK. unfold scatter_partial1. rewrite (row_store nx sx p 0 N) by (auto; lia). reflexivity.
Qed.
Lemma scatter1_ok sx p : (length q = 4)%nat -> (forall x, (x < 4)%nat -> okw N (p + sx * Z.of_nat x)) ->
  scatter1 A q m p sx = Some (writes m (L1 4 sx p 0)).
Proof. intros Hq OK. rewrite <- scatter_partial1_ok; auto. Qed.

Lemma scatter_partial2_ok nx ny sx sy p : (nx <= 4)%nat -> (ny <= 4)%nat -> (length q = 16)%nat ->
  (forall y x, (y < ny)%nat -> (x < nx)%nat -> okw N (p + sy * Z.of_nat y + sx * Z.of_nat x)) ->
  scatter_partial2 A q m p nx ny sx sy = Some (writes m (L2 nx ny sx sy p 0)).
Proof.
  intros Hx Hy Hq OK. unfold scatter_partial2. rewrite (plane_store nx ny sx sy _ p 0 N) by (auto; lia). reflexivity.
Qed.
Lemma scatter2_ok sx sy p : (length q = 16)%nat ->
  (forall y x, (y < 4)%nat -> (x < 4)%nat -> okw N (p + sy * Z.of_nat y + sx * Z.of_nat x)) ->
  scatter2 A q m p sx sy = Some (writes m (L2 4 4 sx sy p 0)).
Proof. intros Hq OK. rewrite <- scatter_partial2_ok; auto. Qed.

Lemma scatter_partial3_ok nx ny nz sx sy sz p : (nx <= 4)%nat -> (ny <= 4)%nat -> (nz <= 4)%nat -> (length q = 64)%nat ->
  (forall z y x, (z < nz)%nat -> (y < ny)%nat -> (x < nx)%nat -> okw N (p + sz * Z.of_nat z + sy * Z.of_nat y + sx * Z.of_nat x)) ->
  scatter_partial3 A q m p nx ny nz sx sy sz = Some (writes m (L3 nx ny nz sx sy sz p 0)).
Proof.
  intros Hx Hy Hz Hq OK. unfold scatter_partial3. rewrite (cube_store nx ny nz sx sy sz _ _ p 0 N) by (auto; lia). reflexivity.
Qed.
Lemma scatter3_ok sx sy sz p : (length q = 64)%nat ->
  (forall z y x, (z < 4)%nat -> (y < 4)%nat -> (x < 4)%nat -> okw N (p + sz * Z.of_nat z + sy * Z.of_nat y + sx * Z.of_nat x)) ->
  scatter3 A q m p sx sy sz = Some (writes m (L3 4 4 4 sx sy sz p 0)).
Proof. intros Hq OK. rewrite <- scatter_partial3_ok; auto. Qed.

Lemma scatter_partial4_ok nx ny nz nw sx sy sz sw p : (nx <= 4)%nat -> (ny <= 4)%nat -> (nz <= 4)%nat -> (nw <= 4)%nat -> (length q = 256)%nat ->
  (forall w z y x, (w < nw)%nat -> (z < nz)%nat -> (y < ny)%nat -> (x < nx)%nat ->
     okw N (p + sw * Z.of_nat w + sz * Z.of_nat z + sy * Z.of_nat y + sx * Z.of_nat x)) ->
  scatter_partial4 A q m p nx ny nz nw sx sy sz sw = Some (writes m (L4 nx ny nz nw sx sy sz sw p 0)).
Proof.
  intros Hx Hy Hz Hw Hq OK. unfold scatter_partial4. rewrite (hyper_store nx ny nz nw sx sy sz sw _ _ _ p N) by (auto; lia). reflexivity.
Qed.
Lemma scatter4_ok sx sy sz sw p : (length q = 256)%nat ->
  (forall w z y x, (w < 4)%nat -> (z < 4)%nat -> (y < 4)%nat -> (x < 4)%nat ->
     okw N (p + sw * Z.of_nat w + sz * Z.of_nat z + sy * Z.of_nat y + sx * Z.of_nat x)) ->
  scatter4 A q m p sx sy sz sw = Some (writes m (L4 4 4 4 4 sx sy sz sw p 0)).
Proof. intros Hq OK. rewrite <- scatter_partial4_ok; auto. Qed.

End Blk.
End Scat.
