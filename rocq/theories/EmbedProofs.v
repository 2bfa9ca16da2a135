(** Facts about the code alone: decoding a code, or a prefix of it. *)
From Coq Require Import ZArith Lia List Bool Arith.
From Verif Require Import ListAux Bits EmbedSpec ZfpCodecProofs ZfpCodecProofs2 ZfpCodecProofs3.
Import ListNotations.
Local Open Scope Z_scope.

Lemma etail_false_none l i : existsb id l = false -> i = false -> l <> [] -> etail i l = ([false], 0%nat).
Proof. intros E -> Hl. destruct l; [congruence|]. apply etail_none; auto. Qed.

Lemma existsb_false_repeat l : existsb id l = false -> l = repeat false (length l).
Proof. induction l as [|x l IH]; cbn; auto. unfold id at 1. destruct x; cbn; [discriminate|]. intros; f_equal; auto. Qed.

Lemma etail_run x y r : etail true (x :: y :: r) =
  let '(e, c) := etail (negb x) (y :: r) in (x :: e, S c).
Proof. rewrite etail_unfold. reflexivity. Qed.

Lemma dtail_run r b inp x : (b <> 0)%nat -> dtail (S (S r)) true b (x :: inp) =
  let '(l, b', i') := dtail (S r) (negb x) (b - 1) inp in (x :: l, b', i').
Proof. intros Hb. apply Nat.eqb_neq in Hb. cbn [dtail]. rewrite Hb. reflexivity. Qed.

(** decoding a complete tail *)
Lemma dtail_etail : forall l i b rest, (i = true -> existsb id l = true) ->
  (length (fst (etail i l)) <= b)%nat ->
  dtail (length l) i b (fst (etail i l) ++ rest) =
  (firstn (snd (etail i l)) l, (b - length (fst (etail i l)))%nat, rest) /\
  existsb id (skipn (snd (etail i l)) l) = false.
Proof.
  assert (forall l, (forall i b rest, (i = true -> existsb id l = true) -> (length (fst (etail i l)) <= b)%nat ->
    dtail (length l) i b (fst (etail i l) ++ rest) =
    (firstn (snd (etail i l)) l, (b - length (fst (etail i l)))%nat, rest) /\
    existsb id (skipn (snd (etail i l)) l) = false)) as H; [|auto].
  induction l as [|x l IH]; intros i b rest Hi Hb.
  { cbn. rewrite Nat.sub_0_r. auto. }
  assert (forall b', existsb id (x :: l) = true -> (length (fst (etail true (x :: l))) <= b')%nat ->
    dtail (length (x :: l)) true b' (fst (etail true (x :: l)) ++ rest) =
    (firstn (snd (etail true (x :: l))) (x :: l), (b' - length (fst (etail true (x :: l))))%nat, rest) /\
    existsb id (skipn (snd (etail true (x :: l))) (x :: l)) = false) as G.
  { intros b' Hex Hb'. destruct l as [|y l].
    - assert (x = true) as -> by (destruct x; auto; discriminate).
      cbn. rewrite Nat.sub_0_r. auto.
    - rewrite etail_run in *. destruct (etail (negb x) (y :: l)) as [e c] eqn:Ee.
      cbn [fst snd length app firstn skipn] in *.
      rewrite dtail_run by lia.
      specialize (IH (negb x) (b' - 1)%nat rest). rewrite Ee in IH. cbn [fst snd length] in IH.
      destruct IH as [I1 I2].
      + intros Hx. destruct x; [discriminate|]. exact Hex.
      + lia.
      + rewrite I1. split; auto. do 2 f_equal. lia. }
  destruct i; [apply G; auto|].
  destruct (existsb id (x :: l)) eqn:E.
  - rewrite etail_out in * by (auto; congruence). cbn [fst snd] in *. destruct b as [|b]; [cbn [length] in Hb; lia|].
    cbn [app length]. rewrite dtail_enter. apply (G b); auto. cbn [length] in Hb. lia.
  - rewrite etail_none in * by (auto; congruence). cbn [fst snd length] in *.
    destruct b as [|b]; [lia|]. cbn [app firstn skipn dtail length hd tl]. split; auto. do 2 f_equal. lia.
Qed.

(** decoding a cut tail uses exactly the budget *)
Lemma dtail_nobudget r inp : dtail r false 0 inp = ([], 0%nat, inp).
Proof. destruct r; reflexivity. Qed.

Lemma dtail_cut : forall l i b inp, (i = true -> existsb id l = true) ->
  (b <= length (fst (etail i l)))%nat -> firstn b inp = firstn b (fst (etail i l)) ->
  exists l', dtail (length l) i b inp = (l', 0%nat, skipn b inp).
Proof.
  assert (forall l, (forall i b inp, (i = true -> existsb id l = true) ->
    (b <= length (fst (etail i l)))%nat -> firstn b inp = firstn b (fst (etail i l)) ->
    exists l', dtail (length l) i b inp = (l', 0%nat, skipn b inp))) as H; [|auto].
  induction l as [|x l IH]; intros i b inp Hi Hb Hp.
  { cbn in *. assert (b = 0)%nat as -> by lia. eauto. }
  assert (forall b' inp, existsb id (x :: l) = true -> (b' <= length (fst (etail true (x :: l))))%nat ->
    firstn b' inp = firstn b' (fst (etail true (x :: l))) ->
    exists l', dtail (length (x :: l)) true b' inp = (l', 0%nat, skipn b' inp)) as G.
  { intros b' inp' Hex Hb' Hp'. destruct l as [|y l].
    - cbn in *. assert (b' = 0)%nat as -> by lia. cbn. eauto.
    - rewrite etail_run in *. destruct (etail (negb x) (y :: l)) as [e c] eqn:Ee.
      cbn [fst snd length] in *. destruct b' as [|b'].
      + cbn [dtail Nat.eqb orb]. destruct (Nat.eqb (S (length l)) 0); cbn [orb]; eauto.
      + destruct inp' as [|x' inp']; [discriminate|]. cbn [firstn] in Hp'. injection Hp' as -> Hp'.
        rewrite dtail_run by lia. rewrite Nat.sub_succ, Nat.sub_0_r.
        destruct (IH (negb x) b' inp') as [l' E'].
        * intros Hx. destruct x; [discriminate|]. exact Hex.
        * rewrite Ee. cbn. lia.
        * rewrite Ee. exact Hp'.
        * cbn [length] in E'. rewrite E'. cbn [skipn]. eauto. }
  destruct i; [apply G; auto|]. destruct b as [|b]; [rewrite dtail_nobudget; eauto|].
  destruct (existsb id (x :: l)) eqn:E.
  - rewrite etail_out in * by (auto; congruence). cbn [fst snd length] in *.
    destruct inp as [|x' inp]; [discriminate|]. cbn [firstn] in Hp. injection Hp as -> Hp.
    rewrite dtail_enter. cbn [skipn]. apply G; auto. lia.
  - rewrite etail_none in * by (auto; congruence). cbn [fst snd length] in *.
    assert (b = 0)%nat as -> by lia. destruct inp as [|x' inp]; [discriminate|]. cbn in Hp. injection Hp as ->.
    cbn. eauto.
Qed.

Lemma firstn_app_r {A} n (a b : list A) : (length a <= n)%nat -> firstn n (a ++ b) = a ++ firstn (n - length a) b.
Proof. intros. rewrite firstn_app, firstn_all2; auto. Qed.

(** each plane of a nonempty array costs at least one bit *)
Lemma ecode_plane_pos n p : p <> [] -> (n <= length p)%nat ->
  (1 <= length (firstn n p) + length (fst (etail false (skipn n p))))%nat.
Proof.
  intros Hp Hn. rewrite firstn_length_le by lia.
  destruct (skipn n p) eqn:E.
  - assert (length (skipn n p) = 0%nat) by (rewrite E; auto). rewrite skipn_length in H.
    assert (1 <= length p)%nat by (destruct p; [congruence|cbn; lia]). lia.
  - destruct (existsb id (b :: l)) eqn:Ex; [rewrite etail_out by (auto; congruence)|rewrite etail_none by (auto; congruence)]; cbn; lia.
Qed.

Lemma pad_to_exact n l : length l = n -> pad_to n l = l.
Proof. intros <-. unfold pad_to. rewrite Nat.sub_diag, app_nil_r. auto. Qed.

(** what [dcode] does with one complete plane *)
Lemma dcode_step k kmin size n b data E c rest :
  (kmin < S k)%nat -> length data = size -> (1 <= size)%nat -> (n <= size)%nat ->
  E = fst (etail false (skipn n (plane data k))) -> c = snd (etail false (skipn n (plane data k))) ->
  (n + length E <= b)%nat ->
  dcode (S k) kmin size n b (firstn n (plane data k) ++ E ++ rest) =
  let '(ps, b2, i2) := dcode k kmin size (n + c) (b - n - length E) rest in
  (plane data k :: ps, b2, i2).
Proof.
  intros Hk Hd Hs Hn HE Hc Hb. cbn [dcode].
  set (p := plane data k) in *. assert (length p = size) as Lp by (unfold p; rewrite plane_length; auto).
  assert (1 <= n + length E)%nat as H1.
  { pose proof (ecode_plane_pos n p ltac:(destruct p; [cbn in Lp; lia|congruence]) ltac:(lia)) as H.
    rewrite firstn_length_le in H by lia. rewrite HE. exact H. }
  assert (negb (b =? 0) && (kmin <? S k) = true)%nat as ->.
  { apply andb_true_intro. split; [apply negb_true_iff, Nat.eqb_neq; lia|apply Nat.ltb_lt; auto]. }
  rewrite Nat.min_l by lia.
  assert (length (firstn n p) = n) as Lf by (apply firstn_length_le; lia).
  assert (skipn n (firstn n p ++ E ++ rest) = E ++ rest) as ->.
  { rewrite skipn_app, Lf, Nat.sub_diag. rewrite skipn_all2 by lia. reflexivity. }
  assert (firstn n (firstn n p ++ E ++ rest) = firstn n p) as ->.
  { rewrite firstn_app, Lf, Nat.sub_diag. cbn [firstn]. rewrite app_nil_r. apply firstn_all2. lia. }
  destruct (dtail_etail (skipn n p) false (b - n)%nat rest ltac:(discriminate) ltac:(rewrite <- HE; lia)) as [D1 D2].
  rewrite skipn_length, Lp, <- HE, <- Hc in *. rewrite D1.
  assert (c <= size - n)%nat as Hcs.
  { rewrite Hc. pose proof (etail_count false (skipn n p)). rewrite skipn_length, Lp in H. auto. }
  assert (length (firstn c (skipn n p)) = c) as -> by (rewrite firstn_length_le; auto; rewrite skipn_length; lia).
  assert (pad_to size (pad_to n (firstn n p) ++ firstn c (skipn n p)) = p) as ->.
  { rewrite (pad_to_exact n) by auto. unfold pad_to.
    rewrite app_length, Lf, (firstn_length_le (skipn n p)) by (rewrite skipn_length; lia).
    apply existsb_false_repeat in D2. rewrite <- skipn_add, skipn_length, Lp in D2.
    rewrite <- app_assoc.
    transitivity (firstn n p ++ firstn c (skipn n p) ++ skipn c (skipn n p)).
    - do 2 f_equal. rewrite <- skipn_add. rewrite D2. f_equal. lia.
    - rewrite !firstn_skipn. auto. }
  destruct (dcode k kmin size (n + c) (b - n - length E) rest) as [[ps b2] i2]. reflexivity.
Qed.

Definition planes (data : list Z) (k kmin : nat) : list (list bool) :=
  map (plane data) (rev (seq kmin (k - kmin))).

Lemma planes_S data k kmin : (kmin <= k)%nat -> planes data (S k) kmin = plane data k :: planes data k kmin.
Proof.
  intros. unfold planes. replace (S k - kmin)%nat with (S (k - kmin)) by lia.
  rewrite seq_S, rev_app_distr. cbn [rev app map]. do 2 f_equal. lia.
Qed.

Lemma dcode_nobudget k kmin size n inp : dcode k kmin size n 0 inp = ([], 0%nat, inp).
Proof. destruct k; reflexivity. Qed.

(** Decoding a complete code with enough budget gives back all coded planes. *)
Lemma dcode_ecode data size : length data = size -> (1 <= size)%nat -> forall k kmin n b rest,
  (n <= size)%nat -> (length (ecode k kmin n data) <= b)%nat ->
  dcode k kmin size n b (ecode k kmin n data ++ rest) =
  (planes data k kmin, (b - length (ecode k kmin n data))%nat, rest).
Proof.
  intros Hd Hs. induction k as [|k IH]; intros kmin n b rest Hn Hb.
  - cbn. rewrite Nat.sub_0_r. auto.
  - destruct (Nat.ltb_spec kmin (S k)) as [Hk|Hk].
    + rewrite ecode_S in * by auto.
      set (p := plane data k) in *. set (E := fst (etail false (skipn n p))) in *.
      set (c := snd (etail false (skipn n p))) in *.
      rewrite !app_length in *. assert (length p = size) as Lp by (unfold p; rewrite plane_length; auto).
      rewrite firstn_length_le in * by lia.
      rewrite <- !app_assoc, (dcode_step k kmin size n b data E c) by (auto; lia).
      assert (n + c <= size)%nat as Hnc.
      { pose proof (etail_count false (skipn n p)) as H. rewrite skipn_length, Lp in H. fold c in H. lia. }
      rewrite IH by lia. rewrite planes_S by lia. do 2 f_equal. lia.
    + cbn [dcode ecode]. apply Nat.ltb_ge in Hk. rewrite Hk, andb_false_r. cbn [app length].
      apply Nat.ltb_ge in Hk. unfold planes. replace (S k - kmin)%nat with 0%nat by lia. rewrite Nat.sub_0_r. auto.
Qed.

(** Decoding any prefix of a code. *)
Lemma dcode_cut data size : length data = size -> (1 <= size)%nat -> forall k kmin n b inp,
  (n <= size)%nat -> (b <= length (ecode k kmin n data))%nat ->
  firstn b inp = firstn b (ecode k kmin n data) ->
  exists ps, dcode k kmin size n b inp = (ps, 0%nat, skipn b inp) /\ (length ps <= k - kmin)%nat /\
  forall q, (kmin <= q <= k)%nat ->
    ((length (ecode k q n data) <= b)%nat -> firstn (k - q) ps = planes data k q) /\
    ((b <= length (ecode k q n data))%nat -> (length ps <= k - q)%nat).
Proof.
  intros Hd Hs. induction k as [|k IH]; intros kmin n b inp Hn Hb Hp.
  - cbn in Hb. assert (b = 0)%nat as -> by lia. cbn. exists []. conjs; auto.
  - destruct (Nat.eq_dec b 0) as [->|Hb0].
    { rewrite dcode_nobudget. exists []. conjs; auto; [cbn; lia|]. intros q Hq. split; cbn [length]; [|lia].
      intros Hq0. destruct (Nat.ltb_spec q (S k)) as [Hk|Hk].
      - rewrite ecode_S in Hq0 by auto. rewrite !app_length in Hq0.
        pose proof (ecode_plane_pos n (plane data k) ltac:(intros E; apply (f_equal (@length bool)) in E; rewrite plane_length in E; cbn in E; lia)
          ltac:(rewrite plane_length; lia)). lia.
      - unfold planes. replace (S k - q)%nat with 0%nat by lia. reflexivity. }
    destruct (Nat.ltb_spec kmin (S k)) as [Hk|Hk].
    2:{ cbn [ecode] in Hb. apply Nat.ltb_ge in Hk. rewrite Hk in Hb. cbn in Hb. lia. }
    rewrite ecode_S in * by auto.
    set (p := plane data k) in *. set (E := fst (etail false (skipn n p))) in *.
    set (c := snd (etail false (skipn n p))) in *.
    assert (length p = size) as Lp by (unfold p; rewrite plane_length; auto).
    assert (length (firstn n p) = n) as Lf by (apply firstn_length_le; lia).
    assert (n + c <= size)%nat as Hnc.
    { pose proof (etail_count false (skipn n p)) as H. rewrite skipn_length, Lp in H. fold c in H. lia. }
    rewrite !app_length, Lf in Hb.
    destruct (le_lt_dec (n + length E) b) as [Hf|Hf].
    + (* the plane is complete *)
      assert (exists inp2, inp = firstn n p ++ E ++ inp2) as [inp2 ->].
      { exists (skipn (n + length E) inp). rewrite <- (firstn_skipn (n + length E) inp) at 1.
        rewrite app_assoc. f_equal.
        assert (firstn (n + length E) (firstn b inp) = firstn (n + length E) inp) as <- by (rewrite firstn_firstn, Nat.min_l; auto).
        rewrite Hp, firstn_firstn, Nat.min_l, app_assoc by auto.
        rewrite firstn_app, app_length, Lf, Nat.sub_diag. cbn [firstn].
        rewrite app_nil_r. apply firstn_all2. rewrite app_length. lia. }
      rewrite (dcode_step k kmin size n b data E c) by (auto; lia).
      rewrite !app_assoc, !(firstn_app_r b) in Hp by (rewrite app_length; lia).
      apply app_inv_head in Hp. rewrite app_length, Lf in Hp.
      destruct (IH kmin (n + c)%nat (b - n - length E)%nat inp2 Hnc ltac:(lia)) as (ps & D & Lps & Hq).
      { replace (b - n - length E)%nat with (b - (n + length E))%nat by lia. exact Hp. }
      rewrite D. exists (p :: ps). conjs.
      * f_equal. rewrite app_assoc, skipn_app, (skipn_all2 (firstn n p ++ E)) by (rewrite app_length; lia).
        rewrite app_length, Lf. cbn [app]. f_equal. lia.
      * cbn [length]. lia.
      * intros q Hq0. destruct (Nat.eq_dec q (S k)) as [->|Hqk].
        -- rewrite Nat.sub_diag. cbn [firstn]. split; [intros; unfold planes; rewrite Nat.sub_diag; reflexivity|].
           cbn [ecode]. rewrite Nat.ltb_irrefl. cbn. lia.
        -- rewrite !ecode_S by lia. fold p. fold E c. rewrite !app_length, Lf.
           specialize (Hq q ltac:(lia)). destruct Hq as [Q1 Q2]. split.
           ++ intros Hle. rewrite planes_S by lia. replace (S k - q)%nat with (S (k - q)) by lia.
              cbn [firstn]. f_equal. apply Q1. lia.
           ++ intros Hle. cbn [length]. specialize (Q2 ltac:(lia)). lia.
    + (* the budget ends inside this plane *)
      cbn [dcode].
      assert (negb (b =? 0) && (kmin <? S k) = true)%nat as ->.
      { apply andb_true_intro. split; [apply negb_true_iff, Nat.eqb_neq; lia|apply Nat.ltb_lt; auto]. }
      set (m := Nat.min n b).
      assert (exists l', dtail (size - n) false (b - m) (skipn m inp) = (l', 0%nat, skipn (b - m) (skipn m inp))) as [l' Dl].
      { destruct (le_lt_dec n b).
        - assert (m = n) as -> by (unfold m; lia).
          replace (size - n)%nat with (length (skipn n p)) by (rewrite skipn_length; lia).
          apply dtail_cut; [discriminate|fold E; lia|]. fold E.
          rewrite firstn_skipn_comm. replace (n + (b - n))%nat with b by lia. rewrite Hp.
          rewrite firstn_app, Lf, firstn_all2 by lia. rewrite skipn_app, Lf, Nat.sub_diag, skipn_all2 by lia.
          cbn [skipn app]. rewrite firstn_app. replace (b - n - length E)%nat with 0%nat by lia.
          cbn [firstn]. apply app_nil_r.
        - assert (b - m = 0)%nat as -> by (unfold m; lia). rewrite dtail_nobudget. cbn [skipn]. eauto. }
      rewrite Dl, dcode_nobudget.
      rewrite <- skipn_add. replace (b - m + m)%nat with b by (unfold m; lia).
      eexists. split; [reflexivity|].
      { split; [cbn [length]; lia|]. intros q Hq0. destruct (Nat.eq_dec q (S k)) as [->|Hqk].
        -- rewrite Nat.sub_diag. cbn [firstn]. split; [intros; unfold planes; rewrite Nat.sub_diag; reflexivity|].
           cbn [ecode]. rewrite Nat.ltb_irrefl. cbn. lia.
        -- rewrite !ecode_S by lia. fold p. fold E c. rewrite !app_length, Lf.
           split; [lia|]. cbn [length]. lia. }
Qed.

(** ** Bits of assembled values *)
Definition bit_of (ps : list (list bool)) (j i : nat) : bool := nth i (nth j ps []) false.

Lemma addplane_nth k : forall data p i, length p = length data -> (i < length data)%nat ->
  nth i (addplane k data p) 0 = addbit k (nth i data 0) (nth i p false).
Proof.
  induction data as [|d data IH]; intros [|b p] i L Hi; cbn in *; try lia.
  destruct i; auto. apply IH; lia.
Qed.

Lemma assemble_bits P : forall k ps data i q,
  Forall (roomy P k) data -> Forall (fun p => length p = length data) ps -> (length ps <= k)%nat ->
  (i < length data)%nat ->
  Z.testbit (nth i (assemble k ps data) 0) (Z.of_nat q) =
  if (q <? k)%nat then bit_of ps (k - 1 - q) i else Z.testbit (nth i data 0) (Z.of_nat q).
Proof.
  induction k as [|k IH]; intros ps data i q Hr Hp Hl Hi.
  - destruct ps; [reflexivity|cbn in Hl; lia].
  - destruct ps as [|p ps].
    + cbn [assemble]. unfold bit_of. rewrite !(nth_overflow []) by (cbn; lia).
      destruct (Nat.ltb_spec q (S k)); auto.
      assert (roomy P (S k) (nth i data 0)) as (z & E & _ & _) by (rewrite Forall_forall in Hr; apply Hr, nth_In; auto).
      rewrite E, Z.mul_pow2_bits_low by lia. destruct i; auto.
    + cbn [assemble]. inversion Hp as [|? ? Hp1 Hp2]; subst.
      assert (roomy P (S k) (nth i data 0)) as Hri by (rewrite Forall_forall in Hr; apply Hr, nth_In; auto).
      rewrite IH.
      * rewrite addplane_nth by auto.
        assert (roomy P k (addbit k (nth i data 0) (nth i p false))) as _ by (apply (addbit_roomy P); auto).
        destruct Hri as (z & E & Hz & _). rewrite E. unfold addbit.
        replace (z * 2 ^ Z.of_nat (S k) + Z.b2z (nth i p false) * 2 ^ Z.of_nat k)
          with ((2 * z + Z.b2z (nth i p false)) * 2 ^ Z.of_nat k) by (rewrite pow2_S; lia).
        destruct (Nat.ltb_spec q k) as [Hq|Hq]; destruct (Nat.ltb_spec q (S k)) as [Hq1|Hq1]; try lia.
        -- unfold bit_of. replace (S k - 1 - q)%nat with (S (k - 1 - q)) by lia. reflexivity.
        -- assert (q = k) as -> by lia. rewrite Z.mul_pow2_bits, Z.sub_diag, Z.testbit_0_r by lia.
           unfold bit_of. replace (S k - 1 - k)%nat with 0%nat by lia. reflexivity.
        -- rewrite !Z.mul_pow2_bits by lia.
           replace (Z.of_nat q - Z.of_nat k) with (Z.succ (Z.of_nat q - Z.of_nat (S k))) by lia.
           rewrite Z.testbit_succ_r by lia. reflexivity.
      * apply addplane_roomy; auto.
      * rewrite addplane_length. auto.
      * cbn in Hl; lia.
      * rewrite addplane_length; auto.
Qed.

Lemma assemble_length k : forall ps data, length (assemble k ps data) = length data.
Proof. induction k; intros [|p ps] data; cbn; auto. rewrite IHk, addplane_length. auto. Qed.

Lemma assemble_range P : forall k ps data, (k <= P)%nat -> Forall (roomy P k) data ->
  Forall (fun p => length p = length data) ps ->
  Forall (fun d => 0 <= d < 2 ^ Z.of_nat P) (assemble k ps data).
Proof.
  assert (forall k data, Forall (roomy P k) data -> Forall (fun d => 0 <= d < 2 ^ Z.of_nat P) data) as R.
  { intros k data. apply Forall_impl. intros d (q & E & Hq & L). pose proof (pow2_pos (Z.of_nat k) ltac:(lia)).
    split; [rewrite E; apply Z.mul_nonneg_nonneg; lia|lia]. }
  induction k as [|k IH]; intros [|p ps] data Hk Hr Hp; cbn [assemble]; eauto.
  inversion Hp; subst. apply IH; [lia| |].
  - apply addplane_roomy; auto.
  - rewrite addplane_length. auto.
Qed.

Lemma planes_nth data k kmin j : (j < k - kmin)%nat -> nth j (planes data k kmin) [] = plane data (k - 1 - j).
Proof.
  revert j. induction k as [|k IH]; intros j Hj; [lia|].
  rewrite planes_S by lia. destruct j.
  - cbn [nth]. f_equal. lia.
  - cbn [nth]. rewrite IH by lia. f_equal. lia.
Qed.

Lemma plane_nth data k i : (i < length data)%nat -> nth i (plane data k) false = Z.testbit (nth i data 0) (Z.of_nat k).
Proof.
  intros. unfold plane. rewrite (nth_indep _ false (Z.testbit 0 (Z.of_nat k))) by (rewrite map_length; auto).
  apply (map_nth (fun d => Z.testbit d (Z.of_nat k))).
Qed.

Lemma planes_length data k kmin : length (planes data k kmin) = (k - kmin)%nat.
Proof. unfold planes. rewrite map_length, rev_length, seq_length. auto. Qed.

Lemma planes_ok data k kmin : Forall (fun p => length p = length data) (planes data k kmin).
Proof. unfold planes. apply Forall_forall. intros p Hp. apply in_map_iff in Hp. destruct Hp as (x & <- & _). apply plane_length. Qed.

(** values agreeing in all bits at or above q *)
Lemma bits_ge_div a b q : 0 <= q -> (forall j, q <= j -> Z.testbit a j = Z.testbit b j) <-> a / 2 ^ q = b / 2 ^ q.
Proof.
  intros Hq. split.
  - intros H. apply Z.bits_inj'. intros n Hn. rewrite !Z.div_pow2_bits by lia. apply H. lia.
  - intros H j Hj. replace j with ((j - q) + q) by lia. rewrite <- !Z.div_pow2_bits by lia. rewrite H. auto.
Qed.
Lemma bits_lt_mod a q : 0 <= q -> (forall j, 0 <= j < q -> Z.testbit a j = false) <-> a mod 2 ^ q = 0.
Proof.
  intros Hq. split.
  - intros H. apply Z.bits_inj'. intros n Hn. rewrite Z.bits_0.
    destruct (Z.lt_ge_cases n q); [rewrite Z.mod_pow2_bits_low by lia; apply H; lia|apply Z.mod_pow2_bits_high; lia].
  - intros H j Hj. rewrite <- (Z.mod_pow2_bits_low a q) by lia. rewrite H. apply Z.bits_0.
Qed.
Lemma testbit_high a P j : 0 <= a < 2 ^ Z.of_nat P -> Z.of_nat P <= j -> Z.testbit a j = false.
Proof.
  intros H Hj. destruct (Z.eq_dec a 0) as [->|]; [apply Z.bits_0|].
  apply Z.bits_above_log2; [lia|]. assert (Z.log2 a < Z.of_nat P); [|lia]. apply Z.log2_lt_pow2; lia.
Qed.
