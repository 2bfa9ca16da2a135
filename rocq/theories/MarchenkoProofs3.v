(** Lemmas about the iteration. *)
From Coq Require Import ZArith QArith List Bool Lia Ring.
From Verif Require Import ListAux FdKernels FdProofs FdOutputProofs Marchenko MarchenkoSpec MarchenkoProofs MarchenkoProofs2.
Import ListNotations.
Local Open Scope Z_scope.

Section Iter.
Variable V : Type.
Variables (v0 v1 : V) (vadd vmul : V -> V -> V) (vopp : V -> V).
Hypothesis RT : ring_theory v0 v1 vadd vmul (vsub V vadd vopp) vopp eq.
Add Ring Vring3 : RT.
Variable costaper : Z -> V.
Variables (rc : (Z -> V) -> Z -> V * V) (cr : (Z -> V * V) -> Z -> V).
Variable A : acquisition V.
Notation NXS := (nxs V A).
Notation NTS := (nts V A).
Notation NF := (Nfoc V A).
Notation int := (integrated V v0 vadd vmul vopp rc cr A).

Lemma set_all_spec np (m : Z -> V) val : 0 < NTS -> np <= NXS ->
  (forall l i j, 0 <= l < NF -> 0 <= i < np -> 0 <= j < NTS ->
    set_all V A np m val (l * NXS * NTS + i * NTS + j) = val l i j (m (l * NXS * NTS + i * NTS + j))).
Proof.
  intros Hn Hp. unfold set_all.
  rewrite (nested_fold (fun m l i => fold_left (fun m j => let a := l * NXS * NTS + i * NTS + j in upd m a (val l i j (m a))) (range 0 NTS) m)).
  destruct (fold_blocks (fun p m => fold_left (fun m j => let a := fst p * NXS * NTS + snd p * NTS + j in upd m a (val (fst p) (snd p) j (m a))) (range 0 NTS) m)
    (fun p => fst p * NXS * NTS + snd p * NTS) NTS (fun p j x => val (fst p) (snd p) j x) (list_prod (range 0 NF) (range 0 np))) with (m := m) as [B1 B2].
  - intros [l i] Hk m'. cbn [fst snd]. split.
    + intros t Ht. apply (fold_upd_hit (fun j => l * NXS * NTS + i * NTS + j) (fun j x => val l i j x)); [apply map_range_NoDup; lia|now apply in_range].
    + intros x Hx. apply (fold_upd_miss (fun j => l * NXS * NTS + i * NTS + j) (fun j x => val l i j x)). intros Hi. apply in_map_iff in Hi as (j & <- & Hj). apply in_range in Hj. lia.
  - apply list_prod_NoDup; apply range_NoDup.
  - intros [l i] [l' i'] Hk Hk' Ne. apply in_traces in Hk as [Hl Hi]. apply in_traces in Hk' as [Hl' Hi']. cbn [fst snd].
    replace (l * NXS * NTS + i * NTS) with ((l * NXS + i) * NTS) by ring. replace (l' * NXS * NTS + i' * NTS) with ((l' * NXS + i') * NTS) by ring.
    apply blocks_apart; try lia. exact Ne.
  - intros l i j Hl Hi Hj. apply (B1 (l, i)); [now apply in_traces|exact Hj].
Qed.
Lemma back_minus j : 0 <= j < NTS -> back V A j = minus_t V A j /\ 0 <= minus_t V A j < NTS /\ minus_t V A (minus_t V A j) = j.
Proof.
  intros Hj. assert (E : minus_t V A j = if j =? 0 then 0 else NTS - j).
  { unfold minus_t, reversed. destruct (Z.eqb_spec j 0) as [->|N]; [apply Z.mod_0_l; lia|]. rewrite Z.mod_opp_l_nz by (try rewrite Z.mod_small by lia; lia). now rewrite Z.mod_small by lia. }
  unfold back. rewrite E. split; [reflexivity|]. split; [destruct (Z.eqb_spec j 0); lia|].
  assert (E2 : forall k, 0 <= k < NTS -> minus_t V A k = if k =? 0 then 0 else NTS - k).
  { intros k Hk. unfold minus_t, reversed. destruct (Z.eqb_spec k 0) as [->|N]; [apply Z.mod_0_l; lia|]. rewrite Z.mod_opp_l_nz by (try rewrite Z.mod_small by lia; lia). now rewrite Z.mod_small by lia. }
  destruct (Z.eqb_spec j 0) as [->|N]; rewrite E2 by lia; cmp; lia.
Qed.

Variable ixpos : list Z.
Variables (mute tsynW : Z -> Z) (smooth shift above reci : Z).
Definition wt (ab : Z) : field V := fun l x t => gain V v0 v1 costaper smooth (shape_of ab NTS (mute (l * NXS + x)) (tsynW (l * NXS + x)) shift) t.
Definition fits (ab : Z) : Prop := ab <> -2 /\ forall l x, 0 <= l < NF -> In x ixpos -> inside NTS smooth (shape_of ab NTS (mute (l * NXS + x)) (tsynW (l * NXS + x)) shift).
Notation NP := (Z.of_nat (length ixpos)).
Notation ps := (pos ixpos).
Lemma win_spec ab f : 0 < NTS -> NP <= NXS -> fits ab -> forall l i j, 0 <= l < NF -> 0 <= i < NP -> 0 <= j < NTS ->
  at_ V A (win V v0 vmul costaper A mute tsynW smooth shift ixpos ab f) l i j = vmul (at_ V A f l i j) (wt ab l (ps i) j).
Proof.
  intros Hn Hp [Ha Hf] l i j Hl Hi Hj. unfold at_, win.
  assert (HS : forall l i, 0 <= l < NF -> 0 <= i < NP -> Forall (op_fits NTS) (window ab NTS (mute (l * NXS + nth (Z.to_nat i) ixpos 0)) (tsynW (l * NXS + nth (Z.to_nat i) ixpos 0)) shift smooth) /\
     forall t, 0 <= t < NTS -> weights V v0 v1 vmul costaper NTS smooth (window ab NTS (mute (l * NXS + nth (Z.to_nat i) ixpos 0)) (tsynW (l * NXS + nth (Z.to_nat i) ixpos 0)) shift smooth) t = wt ab l (nth (Z.to_nat i) ixpos 0) t).
  { intros l' i' Hl' Hi'. apply (window_shape V v0 v1 vadd vmul (vsub V vadd vopp) vopp RT); [exact Ha|exact Hn|]. apply Hf; [assumption|]. apply nth_In. lia. }
  destruct (applyMute_spec V v0 v1 vadd vmul (vsub V vadd vopp) vopp RT costaper f mute smooth ab NF NXS NTS ixpos shift tsynW Hn Hp) as [M _].
  - intros l' i' Hl' Hi'. now apply HS.
  - rewrite M by assumption. f_equal. now apply HS.
Qed.

(** ** linearity of the integration *)
Hypothesis rc_ext : forall f g, (forall j, 0 <= j < NTS -> f j = g j) -> forall w, rc f w = rc g w.
Hypothesis cr_ext : forall f g, (forall w, f w = g w) -> forall j, cr f j = cr g j.
Lemma integrated_ext mode F1 F2 l x j : (forall l x j, F1 l x j = F2 l x j) -> int mode reci F1 l x j = int mode reci F2 l x j.
Proof.
  intros E. unfold integrated.
  assert (Sp : forall l x w, spectrum V vopp rc mode F1 l x w = spectrum V vopp rc mode F2 l x w) by (intros l0 x0 w0; unfold spectrum; now rewrite (rc_ext (F1 l0 x0) (F2 l0 x0)) by (intros; apply E)).
  assert (S : forall k, cr (shot_integral V v0 vadd vmul vopp rc A mode F1 k l) j = cr (shot_integral V v0 vadd vmul vopp rc A mode F2 k l) j).
  { intros k. apply cr_ext. intros w. unfold shot_integral. destruct (in_band V A w); [|reflexivity]. apply csum_ext. intros. now rewrite Sp. }
  assert (T : cr (reciprocal_integral V v0 vadd vmul vopp rc A mode F1 x l) j = cr (reciprocal_integral V v0 vadd vmul vopp rc A mode F2 x l) j).
  { apply cr_ext. intros w. unfold reciprocal_integral. destruct (in_band V A w); [|reflexivity]. apply csum_ext. intros. cbv zeta. now rewrite Sp. }
  cbv zeta. rewrite T. rewrite (vsum_ext V v0 vadd _ _ (fun k => if inside_shot V A k && (shot_at V A k =? x) then vmul (vmul (cr (shot_integral V v0 vadd vmul vopp rc A mode F2 k l) j) (scl V A)) (dx V A) else v0)); [reflexivity|]. intros k _. now rewrite S.
Qed.
Section Linear.
Hypothesis rc_add : forall f g w, rc (fun j => vadd (f j) (g j)) w = cadd V vadd (rc f w) (rc g w).
Hypothesis rc_opp : forall f w, rc (fun j => vopp (f j)) w = (vopp (fst (rc f w)), vopp (snd (rc f w))).
Hypothesis cr_add : forall f g j, cr (fun w => cadd V vadd (f w) (g w)) j = vadd (cr f j) (cr g j).
Hypothesis cr_opp : forall f j, cr (fun w => (vopp (fst (f w)), vopp (snd (f w)))) j = vopp (cr f j).
Notation "0c" := (v0, v0).
Definition copp (c : V * V) : V * V := (vopp (fst c), vopp (snd c)).
Ltac pairs := repeat match goal with c : (V * V)%type |- _ => destruct c end; unfold cadd, cmul, copp; cbn [fst snd]; f_equal; ring.
Lemma double_zero (a : V) : a = vadd a a -> a = v0.
Proof. intros E. transitivity (vadd (vadd a a) (vopp a)); [ring|]. rewrite <- E. ring. Qed.
Lemma rc_zero' : forall w, rc (fun _ => v0) w = 0c.
Proof.
  intros w. pose proof (rc_add (fun _ => v0) (fun _ => v0) w) as E. rewrite (rc_ext (fun j => vadd v0 v0) (fun _ => v0)) in E by (intros; ring).
  destruct (rc (fun _ => v0) w) as [a b]. unfold cadd in E. cbn in E. injection E as Ea Eb. now rewrite (double_zero a), (double_zero b).
Qed.
Lemma cr_zero' : forall j, cr (fun _ => 0c) j = v0.
Proof.
  intros j. apply double_zero. rewrite <- cr_add. apply cr_ext. intros w. unfold cadd. cbn. f_equal; ring.
Qed.
Lemma csum_add n f g : csum V v0 vadd n (fun i => cadd V vadd (f i) (g i)) = cadd V vadd (csum V v0 vadd n f) (csum V v0 vadd n g).
Proof.
  induction n as [|n IH]; cbn [csum]; [pairs|]. rewrite IH. destruct (csum V v0 vadd n f), (csum V v0 vadd n g), (f (Z.of_nat n)), (g (Z.of_nat n)). pairs.
Qed.
Lemma csum_opp n f : csum V v0 vadd n (fun i => copp (f i)) = copp (csum V v0 vadd n f).
Proof. induction n as [|n IH]; cbn [csum]; [pairs|]. rewrite IH. destruct (csum V v0 vadd n f), (f (Z.of_nat n)). pairs. Qed.
Lemma vsum_add n f g : vsum V v0 vadd n (fun i => vadd (f i) (g i)) = vadd (vsum V v0 vadd n f) (vsum V v0 vadd n g).
Proof. induction n as [|n IH]; cbn [vsum]; [ring|]. rewrite IH. ring. Qed.
Lemma vsum_opp n f : vsum V v0 vadd n (fun i => vopp (f i)) = vopp (vsum V v0 vadd n f).
Proof. induction n as [|n IH]; cbn [vsum]; [ring|]. rewrite IH. ring. Qed.
Lemma spectrum_add mode F1 F2 l x w : spectrum V vopp rc mode (fun l x j => vadd (F1 l x j) (F2 l x j)) l x w = cadd V vadd (spectrum V vopp rc mode F1 l x w) (spectrum V vopp rc mode F2 l x w).
Proof. unfold spectrum. rewrite (rc_add (F1 l x) (F2 l x)). destruct (rc (F1 l x) w), (rc (F2 l x) w), mode; pairs. Qed.
Lemma spectrum_opp mode F1 l x w : spectrum V vopp rc mode (fun l x j => vopp (F1 l x j)) l x w = copp (spectrum V vopp rc mode F1 l x w).
Proof. unfold spectrum. rewrite (rc_opp (F1 l x)). destruct (rc (F1 l x) w), mode; pairs. Qed.
Lemma integrated_add mode F1 F2 l x j : int mode reci (fun l x j => vadd (F1 l x j) (F2 l x j)) l x j = vadd (int mode reci F1 l x j) (int mode reci F2 l x j).
Proof.
  unfold integrated.
  assert (S : forall k, cr (shot_integral V v0 vadd vmul vopp rc A mode (fun l x j => vadd (F1 l x j) (F2 l x j)) k l) j =
      vadd (cr (shot_integral V v0 vadd vmul vopp rc A mode F1 k l) j) (cr (shot_integral V v0 vadd vmul vopp rc A mode F2 k l) j)).
  { intros k. rewrite <- cr_add. apply cr_ext. intros w. unfold shot_integral. destruct (in_band V A w); [|pairs]. rewrite <- csum_add. apply csum_ext. intros i _. rewrite spectrum_add.
    destruct (reflection V A k i w), (spectrum V vopp rc mode F1 l (receiver_at V A k i) w), (spectrum V vopp rc mode F2 l (receiver_at V A k i) w). unfold vsub. pairs. }
  assert (T : cr (reciprocal_integral V v0 vadd vmul vopp rc A mode (fun l x j => vadd (F1 l x j) (F2 l x j)) x l) j =
      vadd (cr (reciprocal_integral V v0 vadd vmul vopp rc A mode F1 x l) j) (cr (reciprocal_integral V v0 vadd vmul vopp rc A mode F2 x l) j)).
  { rewrite <- cr_add. apply cr_ext. intros w. unfold reciprocal_integral. destruct (in_band V A w); [|pairs]. rewrite <- csum_add. apply csum_ext. intros i _. cbv zeta. rewrite spectrum_add.
    set (k := reci_xrcv V A _). destruct (reflection V A k _ w), (spectrum V vopp rc mode F1 l (shot_at V A k) w), (spectrum V vopp rc mode F2 l (shot_at V A k) w). pairs. }
  cbv zeta. rewrite T. clear T.
  set (d := fun F k => if inside_shot V A k && (shot_at V A k =? x) then vmul (vmul (cr (shot_integral V v0 vadd vmul vopp rc A mode F k l) j) (scl V A)) (dx V A) else v0).
  assert (D : vsum V v0 vadd (nshots V A) (d (fun l x j => vadd (F1 l x j) (F2 l x j))) = vadd (vsum V v0 vadd (nshots V A) (d F1)) (vsum V v0 vadd (nshots V A) (d F2))).
  { rewrite <- vsum_add. apply vsum_ext. intros k _. unfold d. rewrite S. destruct (inside_shot V A k && (shot_at V A k =? x)); ring. }
  change (fun k => if inside_shot V A k && (shot_at V A k =? x) then vmul (vmul (cr (shot_integral V v0 vadd vmul vopp rc A mode (fun l x j => vadd (F1 l x j) (F2 l x j)) k l) j) (scl V A)) (dx V A) else v0) with (d (fun l x j => vadd (F1 l x j) (F2 l x j))).
  fold (d F1) (d F2). rewrite D. destruct ((reci =? 0) || (reci =? 1)), ((reci =? 0) || (isxcount V A x =? 0)); ring.
Qed.
Lemma integrated_opp mode F1 l x j : int mode reci (fun l x j => vopp (F1 l x j)) l x j = vopp (int mode reci F1 l x j).
Proof.
  unfold integrated.
  assert (S : forall k, cr (shot_integral V v0 vadd vmul vopp rc A mode (fun l x j => vopp (F1 l x j)) k l) j = vopp (cr (shot_integral V v0 vadd vmul vopp rc A mode F1 k l) j)).
  { intros k. rewrite <- cr_opp. apply cr_ext. intros w. change (vopp (fst ?a), vopp (snd ?a)) with (copp a). unfold shot_integral. destruct (in_band V A w); [|pairs]. rewrite <- csum_opp. apply csum_ext. intros i _. rewrite spectrum_opp.
    destruct (reflection V A k i w), (spectrum V vopp rc mode F1 l (receiver_at V A k i) w). pairs. }
  assert (T : cr (reciprocal_integral V v0 vadd vmul vopp rc A mode (fun l x j => vopp (F1 l x j)) x l) j = vopp (cr (reciprocal_integral V v0 vadd vmul vopp rc A mode F1 x l) j)).
  { rewrite <- cr_opp. apply cr_ext. intros w. change (vopp (fst ?a), vopp (snd ?a)) with (copp a). unfold reciprocal_integral. destruct (in_band V A w); [|pairs]. rewrite <- csum_opp. apply csum_ext. intros i _. cbv zeta. rewrite spectrum_opp.
    set (k := reci_xrcv V A _). destruct (reflection V A k _ w), (spectrum V vopp rc mode F1 l (shot_at V A k) w). pairs. }
  cbv zeta. rewrite T. clear T.
  set (d := fun F k => if inside_shot V A k && (shot_at V A k =? x) then vmul (vmul (cr (shot_integral V v0 vadd vmul vopp rc A mode F k l) j) (scl V A)) (dx V A) else v0).
  assert (D : vsum V v0 vadd (nshots V A) (d (fun l x j => vopp (F1 l x j))) = vopp (vsum V v0 vadd (nshots V A) (d F1))).
  { rewrite <- vsum_opp. apply vsum_ext. intros k _. unfold d. rewrite S. destruct (inside_shot V A k && (shot_at V A k =? x)); ring. }
  change (fun k => if inside_shot V A k && (shot_at V A k =? x) then vmul (vmul (cr (shot_integral V v0 vadd vmul vopp rc A mode (fun l x j => vopp (F1 l x j)) k l) j) (scl V A)) (dx V A) else v0) with (d (fun l x j => vopp (F1 l x j))).
  fold (d F1). rewrite D. destruct ((reci =? 0) || (reci =? 1)), ((reci =? 0) || (isxcount V A x =? 0)); ring.
Qed.
Lemma integrated_zero mode l x j : int mode reci (fun _ _ _ => v0) l x j = v0.
Proof.
  apply double_zero. rewrite <- integrated_add.
  apply integrated_ext. intros. ring.
Qed.

(** ** sums of the fields *)
Variable Gf : field V.
Variable wf : field V.
Notation Nk := (N V v0 vadd vmul vopp rc cr A reci ixpos wf Gf).
Notation So := (sum_over V v0 vadd).
Notation R := (Rop V v0 vadd vmul vopp rc cr A reci).
Lemma R_sum p n f l x j : R (So p n f) l x j = So p n (fun k => R (f k)) l x j.
Proof.
  induction n as [|n IH]; cbn [sum_over]; [apply integrated_zero|]. destruct (p n).
  - unfold Rop in *. rewrite (integrated_add true (So p n f) (f n)). now rewrite IH.
  - exact IH.
Qed.
Lemma sum_opp_mul (a : V) p n (f : nat -> field V) l x j : So p n (fun k l x j => vopp (vmul a (f k l x j))) l x j = vopp (vmul a (So p n f l x j)).
Proof. induction n as [|n IH]; cbn [sum_over]; [ring|]. rewrite IH. destruct (p n); ring. Qed.
(** N_(k+1) in terms of the sum of the earlier ones *)
Lemma sum_shift p n l x j : In x ixpos ->
  So (fun k => match k with O => false | S k => p k end) (S n) Nk l x j = vopp (vmul (wf l x j) (R (So p n Nk) l x (minus_t V A j))).
Proof.
  intros Hx. rewrite R_sum. induction n as [|n IH]; [cbn; ring|]. remember (S n) as n1. cbn [sum_over]. rewrite IH. subst n1. cbn [sum_over N].
  destruct (in_dec Z.eq_dec x ixpos) as [_|C]; [|contradiction]. destruct (p n); ring.
Qed.
Lemma sum_ext p q n f l x j : (forall k, (k < n)%nat -> p k = q k) -> So p n f l x j = So q n f l x j.
Proof. intros H. induction n as [|n IH]; [reflexivity|]. cbn [sum_over]. rewrite <- (H n) by lia. rewrite IH by (intros; apply H; lia). reflexivity. Qed.
Lemma sum_split0 p n f l x j : p O = true -> So p (S n) f l x j = vadd (f O l x j) (So (fun k => match k with O => false | S k => p (S k) end) (S n) f l x j).
Proof.
  intros H0. induction n as [|n IH]; [cbn; rewrite H0; ring|]. remember (S n) as n1. cbn [sum_over]. rewrite IH. subst n1. destruct (p (S n)); ring.
Qed.
(** the coupled equations *)
Lemma marchenko_odd n l x j : Nat.odd n = true -> In x ixpos -> 0 <= j < NTS ->
  f1_min V v0 vadd vmul vopp rc cr A reci ixpos wf Gf n l x j = vmul (wf l x (minus_t V A j)) (R (f1_plus V v0 vadd vmul vopp rc cr A reci ixpos wf Gf n) l x j).
Proof.
  intros Hn Hx Hj. unfold f1_min, f1_plus. destruct (back_minus j Hj) as (_ & _ & E).
  rewrite (sum_ext Nat.odd (fun k => match k with O => false | S k => Nat.even k end) (S n)) by (intros [|k] _; [reflexivity|apply Nat.odd_succ]).
  rewrite sum_shift by assumption. rewrite E.
  assert (E2 : R (So Nat.even (S n) Nk) l x j = R (So Nat.even n Nk) l x j).
  { apply integrated_ext. intros. cbn [sum_over]. rewrite <- Nat.negb_odd, Hn. reflexivity. }
  rewrite E2. ring.
Qed.
Lemma marchenko_even n l x j : Nat.even n = true -> In x ixpos -> 0 <= j < NTS ->
  vsub V vadd vopp (f1_plus V v0 vadd vmul vopp rc cr A reci ixpos wf Gf n l x j) (Gf l x j) =
  vmul (wf l x j) (R (fun l x t => f1_min V v0 vadd vmul vopp rc cr A reci ixpos wf Gf n l x (minus_t V A t)) l x (minus_t V A j)).
Proof.
  intros Hn Hx Hj. unfold f1_plus. rewrite sum_split0 by reflexivity.
  rewrite (sum_ext (fun k => match k with O => false | S k => Nat.even (S k) end) (fun k => match k with O => false | S k => Nat.odd k end) (S n)) by (intros [|k] _; [reflexivity|apply Nat.even_succ]).
  rewrite sum_shift by assumption.
  assert (E2 : R (fun l x t => f1_min V v0 vadd vmul vopp rc cr A reci ixpos wf Gf n l x (minus_t V A t)) l x (minus_t V A j) = vopp (R (So Nat.odd n Nk) l x (minus_t V A j))).
  { unfold Rop. rewrite <- integrated_opp.
    assert (Ex : forall F1 F2, (forall l x t, 0 <= t < NTS -> F1 l x t = F2 l x t) -> int true reci F1 l x (minus_t V A j) = int true reci F2 l x (minus_t V A j)).
    { intros F1 F2 E. set (cut := fun F : field V => fun l x t => if (0 <=? t) && (t <? NTS) then F l x t else v0).
      assert (C : forall F, int true reci F l x (minus_t V A j) = int true reci (cut F) l x (minus_t V A j)).
      { intros F. assert (Sp : forall l x w, spectrum V vopp rc true F l x w = spectrum V vopp rc true (cut F) l x w).
        { intros l0 x0 w0. unfold spectrum. rewrite (rc_ext (F l0 x0) (cut F l0 x0)); [reflexivity|]. intros t Ht. unfold cut. now cmp. }
        unfold integrated. cbv zeta.
        assert (T : cr (reciprocal_integral V v0 vadd vmul vopp rc A true F x l) (minus_t V A j) = cr (reciprocal_integral V v0 vadd vmul vopp rc A true (cut F) x l) (minus_t V A j)).
        { apply cr_ext. intros w. unfold reciprocal_integral. destruct (in_band V A w); [|reflexivity]. apply csum_ext. intros. cbv zeta. now rewrite Sp. }
        rewrite T. rewrite (vsum_ext V v0 vadd _ _ (fun k => if inside_shot V A k && (shot_at V A k =? x) then vmul (vmul (cr (shot_integral V v0 vadd vmul vopp rc A true (cut F) k l) (minus_t V A j)) (scl V A)) (dx V A) else v0)); [reflexivity|].
        intros k _. rewrite (cr_ext (shot_integral V v0 vadd vmul vopp rc A true F k l) (shot_integral V v0 vadd vmul vopp rc A true (cut F) k l)); [reflexivity|].
        intros w. unfold shot_integral. destruct (in_band V A w); [|reflexivity]. apply csum_ext. intros. now rewrite Sp. }
      rewrite (C F1), (C F2). apply integrated_ext. intros l0 x0 t0. unfold cut. destruct (Z.leb_spec 0 t0); [|reflexivity]. destruct (Z.ltb_spec t0 NTS); [|reflexivity]. now apply E. }
    apply Ex. intros l0 x0 t Ht. unfold f1_min. destruct (back_minus t Ht) as (_ & _ & ->). cbn [sum_over]. rewrite <- Nat.negb_even, Hn. reflexivity. }
  rewrite E2. change (Nk 0 l x j) with (Gf l x j). unfold vsub. ring.
Qed.
End Linear.

(** ** the arrays after n iterations *)
Hypothesis rc_zero : forall w, rc (fun _ => v0) w = (v0, v0).
Hypothesis G : geometry V A.
Hypothesis Hnd : NoDup ixpos.
Hypothesis Hix : forall x, In x ixpos -> 0 <= x < NXS.
Hypothesis Hwin : fits (- above).
Hypothesis Hab : above <> -2.
Variable Garr : Z -> V.
Definition Gfield : field V := fun l x j => at_ V A Garr l x j.
Notation Nk := (N V v0 vadd vmul vopp rc cr A reci ixpos (wt (- above)) Gfield).
Notation So := (sum_over V v0 vadd).
Notation iter := (iteration V v0 vadd vmul vopp costaper rc cr A mute tsynW smooth shift above reci ixpos).
Lemma npos_le : NP <= NXS.
Proof.
  assert (H : (length ixpos <= length (range 0 NXS))%nat) by (apply NoDup_incl_length; [assumption|]; intros x Hx; apply in_range; now apply Hix).
  unfold range in H. rewrite map_length, seq_length in H. destruct G. lia.
Qed.
Lemma ps_in i : 0 <= i < NP -> In (ps i) ixpos /\ 0 <= ps i < NXS.
Proof. intros H. assert (In (ps i) ixpos) by (apply nth_In; lia). auto. Qed.
Record ok (n : nat) (s : fields V) : Prop := mk_ok {
  o_called : called V s = negb (n =? 0)%nat;
  o_N : holds V v0 A ixpos (negb (called V s)) (Ni V s) (Nk n);
  o_p : forall l i j, 0 <= l < NF -> 0 <= i < NP -> 0 <= j < NTS -> at_ V A (pmin V s) l i j = So (fun _ => true) n (fun k => Rop V v0 vadd vmul vopp rc cr A reci (Nk k)) l (ps i) j;
  o_f2 : forall l i j, 0 <= l < NF -> 0 <= i < NP -> 0 <= j < NTS -> at_ V A (f2p V s) l i j = So (fun _ => true) (S n) Nk l (ps i) j;
  o_fp : forall l i j, 0 <= l < NF -> 0 <= i < NP -> 0 <= j < NTS -> at_ V A (f1plus V s) l i j = So Nat.even (S n) Nk l (ps i) j;
  o_fm : forall l i j, 0 <= l < NF -> 0 <= i < NP -> 0 <= j < NTS -> at_ V A (f1min V s) l i j = vopp (So Nat.odd (S n) Nk l (ps i) (minus_t V A j)) }.
Lemma init_ok : ok 0 (init_fields V v0 A ixpos Garr).
Proof.
  pose proof npos_le as Hp. destruct G as [_ Hn _ _ _ _]. split; cbn [called Ni pmin f1plus f1min f2p init_fields negb].
  - reflexivity.
  - intros l x j _ _ _. reflexivity.
  - intros. reflexivity.
  - intros l i j Hl Hi Hj. unfold at_ at 1. rewrite set_all_spec by (try assumption). cbn. unfold Gfield. ring.
  - intros l i j Hl Hi Hj. unfold at_ at 1. rewrite set_all_spec by (try assumption). cbn. unfold Gfield. ring.
  - intros. cbn. unfold at_. ring.
Qed.
Lemma step_ok n s : ok n s -> ok (S n) (iter s (Z.of_nat n)).
Proof.
  intros [Oc ON Op Of2 Ofp Ofm]. pose proof npos_le as Hp. pose proof G as G'. destruct G' as [_ Hn _ _ _ _].
  unfold iteration. pose proof (synthesis_spec V v0 v1 vadd vmul vopp RT rc cr A rc_ext rc_zero cr_ext G ixpos Hnd Hix (negb (called V s)) (op V s) (Ni V s) true reci (Nk n) ON) as SY.
  destruct (synthesis _ _ _ _ _ _ _ _ (negb (called V s)) _ _ _ _ _) as [Fop iRN] eqn:ES. cbn [snd] in SY. clear ES.
  set (N0 := set_all V A (npos ixpos) (Ni V s) _). set (N1 := win _ _ _ _ _ _ _ _ _ _ (- above) N0).
  assert (HN : forall l i j, 0 <= l < NF -> 0 <= i < NP -> 0 <= j < NTS -> at_ V A N1 l i j = Nk (S n) l (ps i) j).
  { intros l i j Hl Hi Hj. unfold N1. rewrite win_spec by assumption. unfold at_, N0, npos. rewrite set_all_spec by assumption.
    destruct (ps_in i Hi) as [Hin Hr]. destruct (back_minus j Hj) as (Eb & Hb & _). rewrite Eb. unfold at_. rewrite SY by assumption. cbn [N].
    destruct (in_dec Z.eq_dec (ps i) ixpos) as [_|C]; [|contradiction]. unfold Rop. ring. }
  split; cbn [called Ni pmin f1plus f1min f2p].
  - reflexivity.
  - cbn [negb]. split.
    + intros l j Hl Hj i x Hx. assert (Hi : (i < length ixpos)%nat) by (apply nth_error_Some; congruence).
      pose proof (HN l (Z.of_nat i) j Hl ltac:(lia) Hj) as E. unfold at_ in E. rewrite E. f_equal. unfold pos. rewrite Nat2Z.id. now apply nth_error_nth.
    + intros l x j Hx. cbn [N]. destruct (in_dec Z.eq_dec x ixpos); [contradiction|reflexivity].
  - intros l i j Hl Hi Hj. unfold at_ at 1, npos. rewrite set_all_spec by assumption. destruct (ps_in i Hi) as [Hin Hr]. unfold at_ at 1. rewrite SY by assumption.
    change (pmin V s (l * NXS * NTS + i * NTS + j)) with (at_ V A (pmin V s) l i j). rewrite Op by assumption. reflexivity.
  - intros l i j Hl Hi Hj. unfold at_ at 1, npos. rewrite set_all_spec by assumption. rewrite HN by assumption.
    change (f2p V s (l * NXS * NTS + i * NTS + j)) with (at_ V A (f2p V s) l i j). rewrite Of2 by assumption. reflexivity.
  - intros l i j Hl Hi Hj. rewrite rem_even. rewrite even_nat.
    remember (S n) as n1. cbn [sum_over]. subst n1. rewrite Nat.even_succ. rewrite <- Nat.negb_even. destruct (Nat.even n) eqn:E; cbn [negb].
    + now apply Ofp.
    + unfold at_ at 1, npos. rewrite set_all_spec by assumption. rewrite HN by assumption.
      change (f1plus V s (l * NXS * NTS + i * NTS + j)) with (at_ V A (f1plus V s) l i j). rewrite Ofp by assumption. reflexivity.
  - intros l i j Hl Hi Hj. rewrite rem_even. rewrite even_nat.
    destruct (back_minus j Hj) as (Eb & Hb & _). remember (S n) as n1. cbn [sum_over]. subst n1. rewrite Nat.odd_succ. rewrite (proj2 (Z.eqb_neq above (-2)) Hab). destruct (Nat.even n) eqn:E; cbn [negb].
    + unfold at_ at 1, npos. rewrite set_all_spec by assumption. rewrite Eb. rewrite HN by assumption.
      change (f1min V s (l * NXS * NTS + i * NTS + j)) with (at_ V A (f1min V s) l i j). rewrite Ofm by assumption. unfold vsub. ring.
    + now apply Ofm.
Qed.
Lemma run_ok n : ok n (marchenko V v0 vadd vmul vopp costaper rc cr A mute tsynW smooth shift above reci ixpos Garr (Z.of_nat n)).
Proof.
  induction n as [|n IH]; [unfold marchenko; rewrite range_nil by lia; apply init_ok|]. unfold marchenko in *. rewrite Nat2Z.inj_succ. unfold Z.succ. rewrite range_snoc, fold_left_app by lia. cbn [fold_left]. now apply step_ok.
Qed.
(** the Green's functions *)
Hypothesis Hpsi : fits 4.
Lemma green_spec n s : ok n s -> forall l i j, 0 <= l < NF -> 0 <= i < NP -> 0 <= j < NTS ->
  at_ V A (green V v0 vadd vmul costaper A mute tsynW smooth shift ixpos s) l i j =
  vmul (if NTS / 2 <=? mute (l * NXS + ps i) then v0 else vadd (So (fun _ => true) (S n) Nk l (ps i) (minus_t V A j)) (So (fun _ => true) n (fun k => Rop V v0 vadd vmul vopp rc cr A reci (Nk k)) l (ps i) j)) (wt 4 l (ps i) j).
Proof.
  intros [Oc ON Op Of2 Ofp Ofm] l i j Hl Hi Hj. pose proof npos_le as Hp. pose proof G as G'. destruct G' as [_ Hn _ _ _ _].
  unfold green. rewrite win_spec by assumption. f_equal. unfold at_ at 1, npos. rewrite set_all_spec by assumption. destruct (back_minus j Hj) as (Eb & Hb & _). rewrite Eb.
  rewrite Of2, Op by assumption. reflexivity.
Qed.
Lemma packed_restricted F arr : (forall l i j, 0 <= l < NF -> 0 <= i < NP -> 0 <= j < NTS -> at_ V A arr l i j = F l (ps i) j) -> holds V v0 A ixpos false arr (restricted V v0 ixpos F).
Proof.
  intros H. split.
  - intros l j Hl Hj i x Hx. assert (Hi : (i < length ixpos)%nat) by (apply nth_error_Some; congruence).
    pose proof (H l (Z.of_nat i) j Hl ltac:(lia) Hj) as E. unfold at_ in E. rewrite E. unfold pos, restricted. rewrite Nat2Z.id. rewrite (nth_error_nth _ _ 0 Hx).
    destruct (in_dec Z.eq_dec x ixpos) as [_|C]; [reflexivity|]. exfalso. apply C. eapply nth_error_In; exact Hx.
  - intros l x j Hx. unfold restricted. destruct (in_dec Z.eq_dec x ixpos); [contradiction|reflexivity].
Qed.
Lemma Gmin_spec n s : (0 < n)%nat -> ok n s -> forall l i j, 0 <= l < NF -> 0 <= i < NP -> 0 <= j < NTS ->
  at_ V A (Gmin V v0 vadd vmul vopp costaper rc cr A mute tsynW smooth shift reci ixpos (Z.of_nat n) Garr s) l i j =
  vmul (vsub V vadd vopp (int true reci (restricted V v0 ixpos (So Nat.even (S n) Nk)) l (ps i) j) (vopp (So Nat.odd (S n) Nk l (ps i) (minus_t V A j)))) (wt 4 l (ps i) j).
Proof.
  intros H0 [Oc ON Op Of2 Ofp Ofm] l i j Hl Hi Hj. pose proof npos_le as Hp. pose proof G as G'. destruct G' as [_ Hn _ _ _ _].
  unfold Gmin. rewrite (proj2 (Z.eqb_neq (Z.of_nat n) 0)) by lia. rewrite Oc. replace (n =? 0)%nat with false by (symmetry; apply Nat.eqb_neq; lia). cbn [negb].
  pose proof (synthesis_spec V v0 v1 vadd vmul vopp RT rc cr A rc_ext rc_zero cr_ext G ixpos Hnd Hix false (op V s) (f1plus V s) true reci (restricted V v0 ixpos (So Nat.even (S n) Nk)) (packed_restricted _ _ Ofp)) as SY.
  destruct (synthesis _ _ _ _ _ _ _ _ false _ _ _ _ _) as [Fop iRN] eqn:ES. cbn [snd] in SY. clear ES.
  rewrite win_spec by assumption. f_equal. unfold at_ at 1, npos. rewrite set_all_spec by assumption. destruct (ps_in i Hi) as [Hin Hr]. rewrite Ofm by assumption. unfold at_. now rewrite SY by assumption.
Qed.
Lemma Gplus_spec n s gmin : (0 < n)%nat -> ok n s -> forall l i j, 0 <= l < NF -> 0 <= i < NP -> 0 <= j < NTS ->
  at_ V A (Gplus V v0 vadd vmul vopp costaper rc cr A mute tsynW smooth shift reci ixpos gmin (Z.of_nat n) Garr s) l i j =
  vmul (vadd (vopp (int false reci (restricted V v0 ixpos (fun l x j => vopp (So Nat.odd (S n) Nk l x (minus_t V A j)))) l (ps i) j)) (So Nat.even (S n) Nk l (ps i) (minus_t V A j))) (wt 4 l (ps i) j).
Proof.
  intros H0 [Oc ON Op Of2 Ofp Ofm] l i j Hl Hi Hj. pose proof npos_le as Hp. pose proof G as G'. destruct G' as [_ Hn _ _ _ _].
  unfold Gplus. rewrite (proj2 (Z.eqb_neq (Z.of_nat n) 0)) by lia. rewrite andb_false_r. rewrite Oc. replace (n =? 0)%nat with false by (symmetry; apply Nat.eqb_neq; lia). cbn [negb orb].
  pose proof (synthesis_spec V v0 v1 vadd vmul vopp RT rc cr A rc_ext rc_zero cr_ext G ixpos Hnd Hix false (op V s) (f1min V s) false reci (restricted V v0 ixpos (fun l x j => vopp (So Nat.odd (S n) Nk l x (minus_t V A j))))
    (packed_restricted (fun l x j => vopp (So Nat.odd (S n) Nk l x (minus_t V A j))) _ Ofm)) as SY.
  destruct (synthesis _ _ _ _ _ _ _ _ false _ _ _ _ _) as [Fop iRN] eqn:ES. cbn [snd] in SY. clear ES.
  rewrite win_spec by assumption. f_equal. unfold at_ at 1, npos. rewrite set_all_spec by assumption. destruct (ps_in i Hi) as [Hin Hr]. destruct (back_minus j Hj) as (Eb & Hb & _). rewrite Eb. rewrite Ofp by assumption. unfold at_. now rewrite SY by assumption.
Qed.
End Iter.
