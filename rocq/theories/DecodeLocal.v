(** The decoder only depends on the bits it consumes. *)
From Coq Require Import ZArith Lia List Bool Arith.
From Verif Require Import ListAux Bits Bitstream BitstreamProofs BitstreamProofs2 StreamSpec StreamRuns.
From Verif Require Import EmbedSpec ZfpCodec ZfpCodecProofs ZfpCodecProofs2 ZfpCodecProofs3 EmbedProofs EmbedRuns.
Import ListNotations.
Local Open Scope nat_scope.

Lemma dtail_local r : forall inrun b inp l b' inp',
  dtail r inrun b inp = (l, b', inp') ->
  b' <= b /\
  (b - b' <= length inp -> exists pre, inp = pre ++ inp' /\ length pre = b - b' /\
     forall inp2, dtail r inrun b (pre ++ inp2) = (l, b', inp2)).
Proof.
  induction r as [|r IH]; intros inrun b inp l b' inp' E.
  - cbn in E. injection E as <- <- <-. split; [lia|]. intros _. exists []. conjs; auto; cbn [length]; lia.
  - cbn [dtail] in E.
    (* the group test *)
    assert (exists go b1 inp1, (if inrun then (true, b, inp) else match b with O => (false, b, inp) | S b' => (hd false inp, b', tl inp) end) = (go, b1, inp1)
      /\ b1 <= b /\ (b - b1 <= length inp -> exists pre1, inp = pre1 ++ inp1 /\ length pre1 = b - b1 /\
         forall inp2, (if inrun then (true, b, pre1 ++ inp2) else match b with O => (false, b, pre1 ++ inp2) | S b' => (hd false (pre1 ++ inp2), b', tl (pre1 ++ inp2)) end) = (go, b1, inp2))) as (go & b1 & inp1 & G & G1 & G2).
    { destruct inrun; [|destruct b as [|b]].
      - exists true, b, inp. conjs; auto. intros _. exists []. conjs; auto; cbn [length]; lia.
      - exists false, 0, inp. conjs; auto. intros _. exists []. conjs; auto; cbn [length]; lia.
      - exists (hd false inp), b, (tl inp). conjs; auto. intros Hl. destruct inp as [|x inp]; [cbn [length] in Hl; lia|].
        exists [x]. conjs; auto. cbn [length]. lia. }
    rewrite G in E. cbv beta iota zeta in E.
    assert (inp1 = skipn (b - b1) inp) as Hi1.
    { destruct inrun; [|destruct b as [|b]]; injection G as <- <- <-; rewrite ?Nat.sub_diag; auto.
      replace (S b - b) with 1 by lia. destruct inp; reflexivity. }
    destruct go.
    2:{ injection E as <- <- <-. split; [lia|]. intros Hl. destruct (G2 Hl) as (pre & P1 & P2 & P3). exists pre. conjs; auto.
        intros inp2. cbn [dtail]. rewrite P3. reflexivity. }
    destruct ((r =? 0) || (b1 =? 0))%nat eqn:Ec.
    + destruct (dtail r false b1 inp1) as [[l2 b2] inp3] eqn:E2. injection E as <- <- <-.
      destruct (IH _ _ _ _ _ _ E2) as [I1 I2]. split; [lia|]. intros Hl.
      destruct (G2 ltac:(lia)) as (pre1 & P1 & P2 & P3).
      destruct I2 as (pre2 & Q1 & Q2 & Q3).
      { rewrite P1, app_length in Hl. lia. }
      exists (pre1 ++ pre2). conjs.
      * rewrite <- app_assoc, <- Q1. auto.
      * rewrite app_length. lia.
      * intros inp2. cbn [dtail]. rewrite <- app_assoc, P3. cbv beta iota zeta. rewrite Ec, Q3. reflexivity.
    + destruct (dtail r (negb (hd false inp1)) (b1 - 1) (tl inp1)) as [[l2 b2] inp3] eqn:E2. injection E as <- <- <-.
      destruct (IH _ _ _ _ _ _ E2) as [I1 I2]. split; [lia|]. intros Hl.
      apply orb_false_elim in Ec as [Ec1 Ec2]. apply Nat.eqb_neq in Ec1, Ec2.
      destruct (G2 ltac:(lia)) as (pre1 & P1 & P2 & P3).
      assert (Li : length inp = (b - b1) + length inp1) by (rewrite P1 at 1; rewrite app_length; lia).
      destruct inp1 as [|x inp1]; [cbn [length] in *; lia|]. cbn [hd tl length] in *.
      destruct I2 as (pre2 & Q1 & Q2 & Q3); [lia|].
      exists (pre1 ++ x :: pre2). conjs.
      * rewrite <- app_assoc. cbn [app]. rewrite <- Q1. auto.
      * rewrite app_length. cbn [length]. lia.
      * intros inp2. cbn [dtail]. rewrite <- app_assoc, P3. cbv beta iota zeta. cbn [app hd tl].
        rewrite (proj2 (Nat.eqb_neq _ _) Ec1), (proj2 (Nat.eqb_neq _ _) Ec2). cbn [orb]. rewrite Q3. reflexivity.
Qed.

Lemma dcode_local k : forall kmin size n b inp ps b' inp',
  dcode k kmin size n b inp = (ps, b', inp') ->
  b' <= b /\
  (b - b' <= length inp -> exists pre, inp = pre ++ inp' /\ length pre = b - b' /\
     forall inp2, dcode k kmin size n b (pre ++ inp2) = (ps, b', inp2)).
Proof.
  induction k as [|k IH]; intros kmin size n b inp ps b' inp' E.
  - cbn in E. injection E as <- <- <-. split; [lia|]. intros _. exists []. conjs; auto; cbn [length]; lia.
  - cbn [dcode] in E.
    destruct (negb (b =? 0) && (kmin <? S k))%nat eqn:Ec.
    2:{ injection E as <- <- <-. split; [lia|]. intros _. exists []. cbn [app]. conjs; auto; [cbn [length]; lia|]. intros inp2. cbn [dcode]. rewrite Ec. reflexivity. }
    set (m := Nat.min n b) in *.
    destruct (dtail (size - n) false (b - m) (skipn m inp)) as [[l b1] inp1] eqn:E1.
    destruct (dcode k kmin size (n + length l) b1 inp1) as [[ps2 b2] inp2] eqn:E2. injection E as <- <- <-.
    destruct (dtail_local _ _ _ _ _ _ _ E1) as [D1 D2].
    destruct (IH _ _ _ _ _ _ _ _ E2) as [I1 I2].
    assert (m <= b) by (unfold m; lia).
    split; [lia|]. intros Hl.
    destruct D2 as (pre1 & P1 & P2 & P3); [rewrite skipn_length; lia|].
    destruct I2 as (pre2 & Q1 & Q2 & Q3).
    { apply (f_equal (@length bool)) in P1. rewrite skipn_length, app_length in P1. lia. }
    exists (firstn m inp ++ pre1 ++ pre2).
    assert (LF : length (firstn m inp) = m) by (rewrite firstn_length; lia).
    conjs.
    + rewrite <- !app_assoc, <- Q1, <- P1, firstn_skipn. reflexivity.
    + rewrite !app_length, LF. lia.
    + intros inp3. cbn [dcode]. rewrite Ec. fold m.
      rewrite <- !app_assoc.
      rewrite skipn_app, LF, Nat.sub_diag, skipn_all2 by lia. cbn [skipn app]. rewrite P3, Q3.
      rewrite firstn_app, LF, Nat.sub_diag. cbn [firstn]. rewrite app_nil_r, firstn_firstn, Nat.min_id. reflexivity.
Qed.
