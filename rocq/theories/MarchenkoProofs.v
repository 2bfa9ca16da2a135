(** Lemmas about the windows, the integration and the iteration. *)
From Coq Require Import ZArith QArith List Bool Lia Ring.
From Verif Require Import ListAux FdKernels FdProofs FdOutputProofs Marchenko MarchenkoSpec.
Import ListNotations.
Local Open Scope Z_scope.

Lemma upd_same {V} (m : Z -> V) a v : upd m a v a = v.
Proof. unfold upd. now rewrite Z.eqb_refl. Qed.
Lemma upd_other {V} (m : Z -> V) a v x : x <> a -> upd m a v x = m x.
Proof. unfold upd. intros H. now rewrite (proj2 (Z.eqb_neq x a) H). Qed.
(** a loop of updates at distinct addresses *)
Lemma fold_upd_miss {V K} (a : K -> Z) (g : K -> V -> V) ks : forall m x, ~ In x (map a ks) ->
  fold_left (fun m k => upd m (a k) (g k (m (a k)))) ks m x = m x.
Proof.
  induction ks as [|k ks IH]; intros m x H; [reflexivity|]. cbn [fold_left]. rewrite IH by (intros Hi; apply H; now right).
  apply upd_other. intros ->. apply H. now left.
Qed.
Lemma fold_upd_hit {V K} (a : K -> Z) (g : K -> V -> V) ks : forall m k, NoDup (map a ks) -> In k ks ->
  fold_left (fun m k => upd m (a k) (g k (m (a k)))) ks m (a k) = g k (m (a k)).
Proof.
  induction ks as [|k' ks IH]; intros m k ND Hi; [destruct Hi|]. cbn [map] in ND. inversion ND as [|? ? N1 N2]; subst. cbn [fold_left].
  destruct Hi as [->|Hi].
  - rewrite fold_upd_miss by assumption. now rewrite upd_same.
  - rewrite IH by assumption. rewrite upd_other; [reflexivity|]. intros E. apply N1. rewrite <- E. now apply in_map.
Qed.
Lemma range_NoDup a b : NoDup (range a b).
Proof. unfold range. apply FinFun.Injective_map_NoDup; [intros x y; lia|apply seq_NoDup]. Qed.
Lemma map_range_NoDup (f : Z -> Z) a b : (forall x y, a <= x < b -> a <= y < b -> f x = f y -> x = y) -> NoDup (map f (range a b)).
Proof.
  intros H. assert (G : forall l, NoDup l -> (forall x y, In x l -> In y l -> f x = f y -> x = y) -> NoDup (map f l)).
  { induction l as [|x l IH]; intros ND Hf; cbn; constructor.
    - intros Hi. apply in_map_iff in Hi as (y & E & Hy). inversion ND; subst. rewrite (Hf y x) in Hy; auto; [now right|now left].
    - inversion ND; subst. apply IH; [assumption|]. intros; apply Hf; auto; now right. }
  apply G; [apply range_NoDup|]. intros x y Hx Hy. apply in_range in Hx, Hy. now apply H.
Qed.
Lemma fold_left_ext {A B} (f g : A -> B -> A) l : forall a, (forall a b, In b l -> f a b = g a b) -> fold_left f l a = fold_left g l a.
Proof. induction l as [|b l IH]; intros a H; [reflexivity|]. cbn. rewrite H by now left. apply IH. intros; apply H. now right. Qed.

(** decides the comparisons of a goal by lia *)
Ltac cmp := repeat match goal with
  | |- context [?x <=? ?y] => first [rewrite (proj2 (Z.leb_le x y)) by lia | rewrite (proj2 (Z.leb_gt x y)) by lia]
  | |- context [?x <? ?y] => first [rewrite (proj2 (Z.ltb_lt x y)) by lia | rewrite (proj2 (Z.ltb_ge x y)) by lia]
  | |- context [?x =? ?y] => first [rewrite (proj2 (Z.eqb_eq x y)) by lia | rewrite (proj2 (Z.eqb_neq x y)) by lia]
  end.

(** ** loops over traces *)
Lemma nested_fold {W X Y} (f : W -> X -> Y -> W) xs ys : forall m,
  fold_left (fun m x => fold_left (fun m y => f m x y) ys m) xs m = fold_left (fun m p => f m (fst p) (snd p)) (list_prod xs ys) m.
Proof.
  induction xs as [|x xs IH]; intros m; [reflexivity|]. cbn [fold_left list_prod]. rewrite fold_left_app, IH. f_equal.
  clear. revert m. induction ys as [|y ys IH]; intros m; [reflexivity|]. cbn. apply IH.
Qed.
Lemma fold_blocks {W K} (F : K -> (Z -> W) -> Z -> W) (base : K -> Z) (nt : Z) (g : K -> Z -> W -> W) ks :
  (forall k, In k ks -> forall m, (forall t, 0 <= t < nt -> F k m (base k + t) = g k t (m (base k + t))) /\ (forall x, ~ base k <= x < base k + nt -> F k m x = m x)) ->
  NoDup ks -> (forall k k', In k ks -> In k' ks -> k <> k' -> base k + nt <= base k' \/ base k' + nt <= base k) -> forall m,
  (forall k t, In k ks -> 0 <= t < nt -> fold_left (fun m k => F k m) ks m (base k + t) = g k t (m (base k + t))) /\
  (forall x, (forall k, In k ks -> ~ base k <= x < base k + nt) -> fold_left (fun m k => F k m) ks m x = m x).
Proof.
  induction ks as [|k0 ks IH]; intros HF ND HD m; [split; [intros k t []|reflexivity]|].
  inversion ND as [|? ? N1 N2]; subst. cbn [fold_left].
  destruct (IH (fun k H => HF k (or_intror H)) N2 (fun k k' H H' => HD k k' (or_intror H) (or_intror H')) (F k0 m)) as [I1 I2].
  destruct (HF k0 (or_introl eq_refl) m) as [F1 F2]. split.
  - intros k t [<-|Hk] Ht.
    + rewrite I2; [now apply F1|]. intros k Hk. destruct (HD k0 k (or_introl eq_refl) (or_intror Hk)); [intros ->; contradiction| |]; lia.
    + rewrite I1 by assumption. rewrite F2; [reflexivity|]. destruct (HD k0 k (or_introl eq_refl) (or_intror Hk)); [intros ->; contradiction| |]; lia.
  - intros x Hx. rewrite I2 by (intros k Hk; apply Hx; now right). apply F2. apply Hx. now left.
Qed.
Lemma list_prod_NoDup {X Y} (xs : list X) (ys : list Y) : NoDup xs -> NoDup ys -> NoDup (list_prod xs ys).
Proof.
  intros Hx Hy. induction Hx as [|x xs N Hx IH]; [constructor|]. cbn.
  assert (D : forall (l1 l2 : list (X * Y)), NoDup l1 -> NoDup l2 -> (forall p, In p l1 -> ~ In p l2) -> NoDup (l1 ++ l2)).
  { induction 1 as [|p l1 Np H1 IH1]; intros H2 Hd; cbn; [assumption|]. constructor.
    - intros Hi. apply in_app_or in Hi as [Hi|Hi]; [contradiction|]. exact (Hd p (or_introl eq_refl) Hi).
    - apply IH1; [assumption|]. intros q Hq. apply Hd. now right. }
  apply D; [|exact IH|].
  - apply FinFun.Injective_map_NoDup; [intros a b E; now injection E|exact Hy].
  - intros p Hp Hq. apply in_map_iff in Hp as (y & <- & _). apply in_prod_iff in Hq as [Hq _]. contradiction.
Qed.
Lemma in_traces Nfoc n l i : In (l, i) (list_prod (range 0 Nfoc) (range 0 n)) <-> 0 <= l < Nfoc /\ 0 <= i < n.
Proof. rewrite in_prod_iff, !in_range. reflexivity. Qed.
Lemma blocks_apart nxs nt l i l' i' : 0 <= nt -> 0 <= i < nxs -> 0 <= i' < nxs -> (l, i) <> (l', i') ->
  (l * nxs + i) * nt + nt <= (l' * nxs + i') * nt \/ (l' * nxs + i') * nt + nt <= (l * nxs + i) * nt.
Proof.
  intros Hn Hi Hi' Ne. destruct (Z.lt_trichotomy (l * nxs + i) (l' * nxs + i')) as [H|[H|H]].
  - left. nia.
  - exfalso. apply Ne. assert (l = l') by nia. subst. f_equal. nia.
  - right. nia.
Qed.

Lemma rem_even i : (Z.rem i 2 =? 0) = Z.even i.
Proof.
  pose proof (Zmod_even i) as E'. destruct (Z.eqb_spec (Z.rem i 2) 0) as [E|E], (Z.even i); try reflexivity; exfalso.
  - apply Z.rem_divide in E; [|lia]. apply Z.mod_divide in E; lia.
  - apply E. apply Z.rem_divide; [lia|]. now apply Z.mod_divide.
Qed.
Lemma even_nat n : Z.even (Z.of_nat n) = Nat.even n.
Proof. induction n as [|n IH]; [reflexivity|]. rewrite Nat2Z.inj_succ, Z.even_succ, Nat.even_succ. rewrite <- Z.negb_even, <- Nat.negb_even. now rewrite IH. Qed.
Section Values.
Variable V : Type.
Variables (v0 v1 : V) (vadd vmul vsub : V -> V -> V) (vopp : V -> V).
Hypothesis RT : ring_theory v0 v1 vadd vmul vsub vopp eq.
Add Ring Vring : RT.
Variable costaper : Z -> V.

(** ** windows as weights *)
Section Loop.
Variables (base nt : Z) (c : Z -> V).
Hypothesis Hnt : 0 < nt.
Definition factor (a b j : Z) : V := if (a <=? j) && (j <? b) then c j else v1.
Definition loop_weight (a b t : Z) : V := vmul (vmul (factor a b (t - nt)) (factor a b t)) (factor a b (t + nt)).
Lemma factor_snoc a b j : a <= b -> factor a (b + 1) j = vmul (factor a b j) (if j =? b then c b else v1).
Proof.
  intros H. unfold factor. destruct (Z.eqb_spec j b) as [->|N].
  - cmp. cbn [andb]. ring.
  - destruct (Z.lt_ge_cases j b); [|cmp; destruct (a <=? j); cbn [andb]; ring].
    destruct (Z.le_gt_cases a j); cmp; cbn [andb]; ring.
Qed.
Lemma loop_weight_spec a b m : - nt <= a -> b <= 2 * nt -> let m' := fold_left (fun m j => upd m (base + mapj j nt) (vmul (m (base + mapj j nt)) (c j))) (range a b) m in
  (forall t, 0 <= t < nt -> m' (base + t) = vmul (m (base + t)) (loop_weight a b t)) /\ (forall x, ~ base <= x < base + nt -> m' x = m x).
Proof.
  intros Ha Hb. destruct (Z.le_gt_cases a b) as [L|L].
  2: { rewrite range_nil by lia. cbn. split; [|reflexivity]. intros t Ht. unfold loop_weight, factor.
       destruct (Z.leb_spec a (t - nt)), (Z.leb_spec a t), (Z.leb_spec a (t + nt)); try (exfalso; lia); cbn [andb]; cmp; cbn [andb]; ring. }
  replace b with (a + (b - a)) in * by lia. remember (b - a) as n eqn:En. assert (Hn : 0 <= n) by lia. clear En L b. revert Hb. pattern n. apply natlike_ind; [| |exact Hn]; clear n Hn.
  - intros _. rewrite range_nil by lia. cbn. split; [|reflexivity]. intros t Ht. unfold loop_weight, factor.
    destruct (Z.leb_spec a (t - nt)), (Z.leb_spec a t), (Z.leb_spec a (t + nt)); try (exfalso; lia); cbn [andb]; cmp; cbn [andb]; ring.
  - intros n Hn IH Hb. specialize (IH ltac:(lia)). cbv zeta in *. replace (a + Z.succ n) with (a + n + 1) by lia. rewrite range_snoc, fold_left_app by lia. cbn [fold_left].
    set (m1 := fold_left _ (range a (a + n)) m) in *. destruct IH as [I1 I2]. set (b := a + n) in *.
    assert (M : 0 <= mapj b nt < nt /\ (mapj b nt = b \/ mapj b nt = b - nt \/ mapj b nt = b + nt)).
    { unfold mapj. destruct (Z.leb_spec nt b); [lia|]. destruct (Z.ltb_spec b 0); lia. }
    split.
    + intros t Ht. unfold loop_weight. rewrite !factor_snoc by (unfold b; lia).
      destruct (Z.eq_dec t (mapj b nt)) as [E|N].
      * rewrite E, upd_same. rewrite I1 by lia. rewrite <- E. unfold loop_weight.
        destruct M as (_ & [M|[M|M]]); cmp; ring.
      * rewrite upd_other by lia. rewrite I1 by lia. unfold loop_weight.
        assert (t - nt <> b /\ t <> b /\ t + nt <> b) as (N1 & N2 & N3) by (unfold mapj in N; revert N; destruct (Z.leb_spec nt b); [lia|destruct (Z.ltb_spec b 0); lia]).
        rewrite (proj2 (Z.eqb_neq _ _) N1), (proj2 (Z.eqb_neq _ _) N2), (proj2 (Z.eqb_neq _ _) N3). ring.
    + intros x Hx. rewrite upd_other by lia. now apply I2.
Qed.
End Loop.

(** the factor of an operation at loop index j *)
Definition op_factor (smooth : Z) (o : wop) (j : Z) : V :=
  match o with Mute _ _ => v0 | Down a _ => costaper (j - a) | Up a _ => costaper (smooth - (j - a) - 1) | Clear => v0 end.
Definition op_weight (nt smooth : Z) (o : wop) (t : Z) : V :=
  match o with Mute a b | Down a b | Up a b => loop_weight nt (op_factor smooth o) a b t | Clear => v0 end.
Definition op_fits (nt : Z) (o : wop) : Prop := match o with Mute a b | Down a b | Up a b => - nt <= a /\ b <= 2 * nt | Clear => True end.
Lemma run_op_weight base nt smooth o m : 0 < nt -> op_fits nt o ->
  (forall t, 0 <= t < nt -> run_op V v0 vmul costaper base nt smooth m o (base + t) = vmul (m (base + t)) (op_weight nt smooth o t)) /\
  (forall x, ~ base <= x < base + nt -> run_op V v0 vmul costaper base nt smooth m o x = m x).
Proof.
  intros Hnt Hf. destruct o as [a b|a b|a b|]; cbn [run_op op_weight op_fits] in *.
  - rewrite (fold_left_ext _ (fun m j => upd m (base + mapj j nt) (vmul (m (base + mapj j nt)) (op_factor smooth (Mute a b) j)))).
    + apply loop_weight_spec; lia.
    + intros m' j _. f_equal. cbn. ring.
  - apply (loop_weight_spec base nt (op_factor smooth (Down a b))); lia.
  - apply (loop_weight_spec base nt (op_factor smooth (Up a b))); lia.
  - split.
    + intros t Ht. rewrite (fold_upd_hit (fun j => base + j) (fun _ _ => v0)); [ring| |now apply in_range].
      apply map_range_NoDup. lia.
    + intros x Hx. apply (fold_upd_miss (fun j => base + j) (fun _ _ => v0)). intros Hi. apply in_map_iff in Hi as (j & <- & Hj). apply in_range in Hj. lia.
Qed.
Definition weights (nt smooth : Z) (w : list wop) (t : Z) : V := fold_right (fun o acc => vmul (op_weight nt smooth o t) acc) v1 w.
Lemma run_window_weight base nt smooth w : 0 < nt -> Forall (op_fits nt) w -> forall m,
  (forall t, 0 <= t < nt -> run_window V v0 vmul costaper base nt smooth w m (base + t) = vmul (m (base + t)) (weights nt smooth w t)) /\
  (forall x, ~ base <= x < base + nt -> run_window V v0 vmul costaper base nt smooth w m x = m x).
Proof.
  intros Hnt. induction w as [|o w IH]; intros Hf m; cbn.
  - split; [intros; ring|reflexivity].
  - inversion Hf as [|? ? F1 F2]; subst. destruct (run_op_weight base nt smooth o m Hnt F1) as [R1 R2]. destruct (IH F2 (run_op V v0 vmul costaper base nt smooth m o)) as [I1 I2]. split.
    + intros t Ht. unfold run_window in I1. rewrite I1, R1 by assumption. fold (weights nt smooth w t). ring.
    + intros x Hx. unfold run_window in I2. rewrite I2, R2 by assumption. reflexivity.
Qed.

(** ** applyMute on the array *)
Lemma applyMute_spec data mute smooth above Nfoc nxs nt ixpos shift tsynW :
  0 < nt -> Z.of_nat (length ixpos) <= nxs ->
  let w l i := window above nt (mute (l * nxs + nth (Z.to_nat i) ixpos 0)) (tsynW (l * nxs + nth (Z.to_nat i) ixpos 0)) shift smooth in
  (forall l i, 0 <= l < Nfoc -> 0 <= i < Z.of_nat (length ixpos) -> Forall (op_fits nt) (w l i)) ->
  let r := applyMute V v0 vmul costaper data mute smooth above Nfoc nxs nt ixpos shift tsynW in
  (forall l i t, 0 <= l < Nfoc -> 0 <= i < Z.of_nat (length ixpos) -> 0 <= t < nt ->
     r (l * nxs * nt + i * nt + t) = vmul (data (l * nxs * nt + i * nt + t)) (weights nt smooth (w l i) t)) /\
  (forall x, (forall l i, 0 <= l < Nfoc -> 0 <= i < Z.of_nat (length ixpos) -> ~ l * nxs * nt + i * nt <= x < l * nxs * nt + i * nt + nt) -> r x = data x).
Proof.
  intros Hnt Hp w HF r. unfold r, applyMute. rewrite nested_fold.
  destruct (fold_blocks (fun p => run_window V v0 vmul costaper (fst p * nxs * nt + snd p * nt) nt smooth (w (fst p) (snd p))) (fun p => fst p * nxs * nt + snd p * nt) nt
     (fun p t x => vmul x (weights nt smooth (w (fst p) (snd p)) t)) (list_prod (range 0 Nfoc) (range 0 (Z.of_nat (length ixpos))))) with (m := data) as [B1 B2].
  - intros [l i] Hk m. apply in_traces in Hk as [Hl Hi]. cbn [fst snd]. apply run_window_weight; [assumption|]. now apply HF.
  - apply list_prod_NoDup; apply range_NoDup.
  - intros [l i] [l' i'] Hk Hk' Ne. apply in_traces in Hk as [Hl Hi]. apply in_traces in Hk' as [Hl' Hi']. cbn [fst snd].
    replace (l * nxs * nt + i * nt) with ((l * nxs + i) * nt) by ring. replace (l' * nxs * nt + i' * nt) with ((l' * nxs + i') * nt) by ring.
    apply blocks_apart; try lia. exact Ne.
  - split.
    + intros l i t Hl Hi Ht. apply (B1 (l, i)); [now apply in_traces|exact Ht].
    + intros x Hx. apply B2. intros [l i] Hk. apply in_traces in Hk as [Hl Hi]. now apply Hx.
Qed.

(** ** the windows have the shapes of the specification *)
Lemma loop_weight_inside nt c a b t : 0 < nt -> 0 <= a -> b <= nt -> 0 <= t < nt -> loop_weight nt c a b t = factor c a b t.
Proof.
  intros Hn Ha Hb Ht. unfold loop_weight. unfold factor at 1 3.
  rewrite (proj2 (Z.leb_gt a (t - nt))) by lia. rewrite (proj2 (Z.ltb_ge (t + nt) b)) by lia. rewrite andb_false_r. cbn [andb]. ring.
Qed.
Lemma factor_in c a b t : a <= t < b -> factor c a b t = c t.
Proof. intros H. unfold factor. now cmp. Qed.
Lemma factor_before c a b t : t < a -> factor c a b t = v1.
Proof. intros H. unfold factor. now cmp. Qed.
Lemma factor_after c a b t : b <= t -> factor c a b t = v1.
Proof. intros H. unfold factor. rewrite (proj2 (Z.ltb_ge t b)) by lia. now rewrite andb_false_r. Qed.
Ltac facs := repeat match goal with
  | |- context [factor ?c ?a ?b ?t] => first [rewrite (factor_before c a b t) by lia | rewrite (factor_after c a b t) by lia | rewrite (factor_in c a b t) by lia]
  end.
Ltac regions := repeat match goal with |- context [if ?x <? ?y then _ else _] => destruct (Z.ltb_spec x y) end.
Ltac index := match goal with |- costaper ?a = costaper ?b => replace a with b by lia; reflexivity end.
Ltac window_goal := unfold weights; cbn [fold_right op_weight]; rewrite !loop_weight_inside by lia; unfold gain; regions; facs; cbn [op_factor]; try (exfalso; lia); try ring;
  match goal with |- ?L = costaper ?b => match L with context [costaper ?a] => replace a with b by lia end; ring end.
Lemma stop_weight nt smooth lo hi t : 0 <= t < nt -> inside nt smooth (Stop lo hi) ->
  weights nt smooth [Down (lo - smooth) lo; Mute lo hi; Up hi (hi + smooth)] t = gain V v0 v1 costaper smooth (Stop lo hi) t.
Proof. intros Ht (Hs & H1 & H2). window_goal. Qed.
Lemma pass_weight nt smooth lo hi t : 0 <= t < nt -> inside nt smooth (Pass lo hi) ->
  weights nt smooth [Mute 0 (lo - smooth); Up (lo - smooth) lo; Down hi (hi + smooth); Mute (hi + smooth) nt] t = gain V v0 v1 costaper smooth (Pass lo hi) t.
Proof. intros Ht (Hs & H1 & H2). window_goal. Qed.
Lemma from_weight nt smooth lo t : 0 <= t < nt -> inside nt smooth (From lo) ->
  weights nt smooth [Mute 0 (lo - smooth); Up (lo - smooth) lo] t = gain V v0 v1 costaper smooth (From lo) t.
Proof. intros Ht (Hs & H1). window_goal. Qed.
Lemma until_weight nt smooth hi t : 0 <= t < nt -> inside nt smooth (Until hi) ->
  weights nt smooth [Down hi (hi + smooth); Mute (hi + smooth) nt] t = gain V v0 v1 costaper smooth (Until hi) t.
Proof. intros Ht (Hs & H1). window_goal. Qed.
Lemma clear_weight nt smooth t : weights nt smooth [Clear] t = v0.
Proof. unfold weights. cbn. ring. Qed.

Lemma window_shape above nt tm ts sh smooth : above <> -2 -> 0 < nt -> inside nt smooth (shape_of above nt tm ts sh) ->
  Forall (op_fits nt) (window above nt tm ts sh smooth) /\ forall t, 0 <= t < nt -> weights nt smooth (window above nt tm ts sh smooth) t = gain V v0 v1 costaper smooth (shape_of above nt tm ts sh) t.
Proof.
  intros Ha Hn Hi.
  assert (Fit : forall a b, - nt <= a -> b <= 2 * nt -> - nt <= a /\ b <= 2 * nt) by auto.
  unfold window.
  destruct (Z.eqb_spec above 1) as [->|N1].
  { cbn [shape_of] in Hi |- *. split.
    - repeat constructor; destruct Hi as (? & ?); cbn [op_fits]; lia.
    - intros t Ht. replace (- 2 * ts + tm - sh) with (tm - sh - 2 * ts) by lia. now apply from_weight. }
  destruct (Z.eqb_spec above 0) as [->|N0].
  { cbn [shape_of] in Hi |- *. destruct (Z.leb_spec (nt / 2) tm); [rewrite (proj2 (Z.ltb_ge _ _)) in Hi |- * by lia|rewrite (proj2 (Z.ltb_lt _ _)) in Hi |- * by lia].
    - split; [repeat constructor|]. intros. apply clear_weight.
    - split; [repeat constructor; destruct Hi as (? & ?); cbn [op_fits]; lia|]. intros t Ht.
      replace (- 2 * ts + tm - sh) with (tm - sh - 2 * ts) by lia. replace (nt + 1 - tm + sh + 2 * ts) with (nt + 1 - (tm - sh - 2 * ts)) by lia. now apply stop_weight. }
  destruct (Z.eqb_spec above 4) as [->|N4].
  { cbn [shape_of orb] in Hi |- *. split; [repeat constructor; destruct Hi as (? & ?); cbn [op_fits]; lia|]. intros t Ht.
    replace (- 2 * ts + tm - sh) with (tm - sh - 2 * ts) by lia. replace (nt + 1 - tm + sh + 2 * ts) with (nt + 1 - (tm - sh - 2 * ts)) by lia. now apply pass_weight. }
  destruct (Z.eqb_spec above (-4)) as [->|N4'].
  { cbn [shape_of orb] in Hi |- *. split; [repeat constructor; destruct Hi as (? & ?); cbn [op_fits]; lia|]. intros t Ht.
    replace (- 2 * ts + tm - sh) with (tm - sh - 2 * ts) by lia. replace (nt + 1 - tm + sh + 2 * ts) with (nt + 1 - (tm - sh - 2 * ts)) by lia. now apply pass_weight. }
  cbn [orb]. destruct (Z.eqb_spec above 6) as [->|N6].
  { cbn [shape_of] in Hi |- *. destruct (Z.leb_spec (nt / 2) tm); [rewrite (proj2 (Z.ltb_ge _ _)) in Hi |- * by lia|rewrite (proj2 (Z.ltb_lt _ _)) in Hi |- * by lia].
    - split; [repeat constructor|]. intros. apply clear_weight.
    - split; [repeat constructor; destruct Hi as (? & ?); cbn [op_fits]; lia|]. intros t Ht. cbv zeta.
      replace (- 2 * ts + tm + sh) with (tm + sh - 2 * ts) by lia. replace (nt - tm + sh) with (nt - (tm - sh)) by lia. now apply stop_weight. }
  destruct (Z.eqb_spec above (-6)) as [->|N6'].
  { cbn [shape_of] in Hi |- *. destruct (Z.leb_spec (nt / 2) tm); [rewrite (proj2 (Z.ltb_ge _ _)) in Hi |- * by lia|rewrite (proj2 (Z.ltb_lt _ _)) in Hi |- * by lia].
    - split; [repeat constructor|]. intros. apply clear_weight.
    - split; [repeat constructor; destruct Hi as (? & ?); cbn [op_fits]; lia|]. intros t Ht. cbv zeta.
      replace (- 2 * ts + tm - sh) with (tm - sh - 2 * ts) by lia. replace (nt - tm - sh) with (nt - (tm + sh)) by lia. now apply stop_weight. }
  destruct (Z.eqb_spec above 10) as [->|N10].
  { cbn [shape_of] in Hi |- *. split; [repeat constructor; destruct Hi as (? & ?); cbn [op_fits]; lia|]. intros t Ht.
    replace (nt - tm + sh) with (nt - (tm - sh)) by lia. now apply pass_weight. }
  rewrite (proj2 (Z.eqb_neq above (-2)) Ha).
  destruct (Z.eqb_spec above (-1)) as [->|N1'].
  { cbn [shape_of] in Hi |- *. split; [repeat constructor; destruct Hi as (? & ?); cbn [op_fits]; lia|]. intros t Ht.
    replace (ts + tm - sh) with (tm - sh + ts) by lia. now apply until_weight. }
  destruct (Z.eqb_spec above 2) as [->|N2].
  { cbn [shape_of orb] in Hi |- *. split; [repeat constructor; destruct Hi as (? & ?); cbn [op_fits]; lia|]. intros t Ht. now apply pass_weight. }
  destruct (Z.eqb_spec above 7) as [->|N7].
  { cbn [shape_of orb] in Hi |- *. split; [repeat constructor; destruct Hi as (? & ?); cbn [op_fits]; lia|]. intros t Ht. now apply pass_weight. }
  cbn [orb]. destruct (Z.eqb_spec above (-7)) as [->|N7'].
  { cbn [shape_of] in Hi |- *. split; [repeat constructor; destruct Hi as (? & ?); cbn [op_fits]; lia|]. intros t Ht. now apply stop_weight. }
  split; [constructor|]. intros t Ht.
  assert (E : shape_of above nt tm ts sh = Keep).
  { destruct above as [|p|p]; [congruence| |]; repeat (destruct p as [p|p|]; try congruence; try reflexivity). }
  rewrite E. reflexivity.
Qed.

Lemma pass_wrapped nt smooth lo hi t : 0 <= t < nt -> inside nt smooth (Pass lo hi) -> lo <= hi ->
  weights nt smooth [Down (hi - nt) (hi - nt + smooth); Mute (hi + smooth - nt) (lo - smooth); Up (lo - smooth) lo] t = gain V v0 v1 costaper smooth (Pass lo hi) t.
Proof.
  intros Ht (Hs & H1 & H2) H3. unfold weights. cbn [fold_right op_weight]. unfold loop_weight, gain.
  regions; facs; cbn [op_factor]; try (exfalso; lia); try ring;
  match goal with |- ?L = costaper ?b => match L with context [costaper ?a] => replace a with b by lia end; ring end.
Qed.
Lemma until_weight' nt smooth lo t : 0 <= t < nt -> inside nt smooth (Until (lo - smooth)) ->
  weights nt smooth [Down (lo - smooth) lo; Mute lo nt] t = gain V v0 v1 costaper smooth (Until (lo - smooth)) t.
Proof. intros Ht (Hs & H1). window_goal. Qed.
Definition plane_kind above := above = 1 \/ above = 4 \/ above = 11 \/ above = 44.
Lemma window_plane_shape above iter nt tm tmi sh smooth : plane_kind above -> 0 < nt ->
  let w := parity iter (shape_plane above nt smooth tm tmi sh) (shape_plane above nt smooth tmi tm sh) in inside nt smooth w ->
  Forall (op_fits nt) (window_plane above iter nt tm tmi sh smooth) /\ forall t, 0 <= t < nt -> weights nt smooth (window_plane above iter nt tm tmi sh smooth) t = gain V v0 v1 costaper smooth w t.
Proof.
  intros Ha Hn w. unfold w, parity. clear w. unfold window_plane.
  rewrite rem_even.
  destruct (Z.even iter), Ha as [-> | [-> | [-> | ->]]]; cbn [Z.eqb Z.opp Pos.eqb shape_plane]; intros Hi.
  all: split; [repeat constructor; destruct Hi as (? & ?); cbn [op_fits]; lia|intros t Ht].
  - replace (nt + 1 - tmi + sh) with (nt + 1 - (tmi - sh)) by lia. now apply stop_weight.
  - replace (1 - tmi + sh - smooth) with (nt + 1 - (tmi - sh) - smooth - nt) by lia. replace (1 - tmi + sh) with (nt + 1 - (tmi - sh) - smooth - nt + smooth) at 1 by lia.
    replace (1 - tmi + sh) with (nt + 1 - (tmi - sh) - smooth + smooth - nt) by lia. apply pass_wrapped; [assumption|assumption|]. destruct Hi. lia.
  - now apply until_weight'.
  - now apply from_weight.
  - replace (nt + 1 - tm + sh) with (nt + 1 - (tm - sh)) by lia. now apply stop_weight.
  - replace (1 - tm + sh - smooth) with (nt + 1 - (tm - sh) - smooth - nt) by lia. replace (1 - tm + sh) with (nt + 1 - (tm - sh) - smooth - nt + smooth) at 1 by lia.
    replace (1 - tm + sh) with (nt + 1 - (tm - sh) - smooth + smooth - nt) by lia. apply pass_wrapped; [assumption|assumption|]. destruct Hi. lia.
  - now apply until_weight'.
  - now apply from_weight.
Qed.
Lemma window_tshift_shape above iter nt tm ts sh smooth : above = 0 \/ above = 4 -> 0 < nt ->
  let kind := if above =? 0 then 1 else 4 in
  let w := parity iter (shape_plane kind nt smooth tm (tm - 2 * ts) sh) (shape_plane kind nt smooth (tm - 2 * ts) tm sh) in inside nt smooth w ->
  Forall (op_fits nt) (window_tshift above iter nt tm ts sh smooth) /\ forall t, 0 <= t < nt -> weights nt smooth (window_tshift above iter nt tm ts sh smooth) t = gain V v0 v1 costaper smooth w t.
Proof.
  intros Ha Hn kind w. unfold w, kind, parity. clear w kind. unfold window_tshift.
  rewrite rem_even.
  destruct (Z.even iter), Ha as [->| ->]; cbn [Z.eqb Z.opp Pos.eqb shape_plane]; intros Hi.
  all: split; [repeat constructor; destruct Hi as (? & ?); cbn [op_fits]; lia|intros t Ht].
  - replace (nt + 1 - tm + sh + 2 * ts) with (nt + 1 - (tm - 2 * ts - sh)) by lia. replace (nt + 1 - tm + 2 * ts + sh) with (nt + 1 - (tm - 2 * ts - sh)) by lia. now apply stop_weight.
  - replace (1 - tm + 2 * ts + sh - smooth) with (nt + 1 - (tm - 2 * ts - sh) - smooth - nt) by lia. replace (1 - tm + 2 * ts + sh) with (nt + 1 - (tm - 2 * ts - sh) - smooth - nt + smooth) at 1 by lia.
    replace (1 - tm + 2 * ts + sh) with (nt + 1 - (tm - 2 * ts - sh) - smooth + smooth - nt) by lia. apply pass_wrapped; [assumption|assumption|]. destruct Hi. lia.
  - replace (nt + 1 - (tm - 2 * ts) + sh - 2 * ts) with (nt + 1 - (tm - sh)) by lia. replace (nt + 1 - (tm - 2 * ts + 2 * ts) + sh) with (nt + 1 - (tm - sh)) by lia. now apply stop_weight.
  - replace (1 - (tm - 2 * ts + 2 * ts) + sh - smooth) with (nt + 1 - (tm - sh) - smooth - nt) by lia. replace (1 - (tm - 2 * ts + 2 * ts) + sh) with (nt + 1 - (tm - sh) - smooth - nt + smooth) at 1 by lia.
    replace (1 - (tm - 2 * ts + 2 * ts) + sh) with (nt + 1 - (tm - sh) - smooth + smooth - nt) by lia. apply pass_wrapped; [assumption|assumption|]. destruct Hi. lia.
Qed.

(** the versions that work on a copy of the trace *)
Lemma copied_window base nt smooth w m : 0 < nt -> Forall (op_fits nt) w ->
  let Nig := run_window V v0 vmul costaper 0 nt smooth w (fun j => m (base + j)) in
  let r := fold_left (fun m j => upd m (base + j) (Nig j)) (range 0 nt) m in
  (forall t, 0 <= t < nt -> r (base + t) = vmul (m (base + t)) (weights nt smooth w t)) /\ (forall x, ~ base <= x < base + nt -> r x = m x).
Proof.
  intros Hn Hf Nig r. destruct (run_window_weight 0 nt smooth w Hn Hf (fun j => m (base + j))) as [R _]. split.
  - intros t Ht. unfold r. rewrite (fold_upd_hit (fun j => base + j) (fun j _ => Nig j)); [|apply map_range_NoDup; lia|now apply in_range].
    unfold Nig. specialize (R t Ht). rewrite !Z.add_0_l in R. exact R.
  - intros x Hx. unfold r. apply (fold_upd_miss (fun j => base + j) (fun j _ => Nig j)). intros Hi. apply in_map_iff in Hi as (j & <- & Hj). apply in_range in Hj. lia.
Qed.
Lemma windows_spec (data : Z -> V) Nfoc nxs np nt (W : Z -> Z -> (Z -> V) -> Z -> V) (g : Z -> Z -> Z -> V) :
  0 < nt -> np <= nxs ->
  (forall l i m, 0 <= l < Nfoc -> 0 <= i < np -> (forall t, 0 <= t < nt -> W l i m (l * nxs * nt + i * nt + t) = vmul (m (l * nxs * nt + i * nt + t)) (g l i t)) /\
     (forall x, ~ l * nxs * nt + i * nt <= x < l * nxs * nt + i * nt + nt -> W l i m x = m x)) ->
  let r := fold_left (fun m l => fold_left (fun m i => W l i m) (range 0 np) m) (range 0 Nfoc) data in
  (forall l i t, 0 <= l < Nfoc -> 0 <= i < np -> 0 <= t < nt -> r (l * nxs * nt + i * nt + t) = vmul (data (l * nxs * nt + i * nt + t)) (g l i t)) /\
  (forall x, (forall l i, 0 <= l < Nfoc -> 0 <= i < np -> ~ l * nxs * nt + i * nt <= x < l * nxs * nt + i * nt + nt) -> r x = data x).
Proof.
  intros Hnt Hp HW r. unfold r. rewrite (nested_fold (fun m l i => W l i m)).
  destruct (fold_blocks (fun p => W (fst p) (snd p)) (fun p => fst p * nxs * nt + snd p * nt) nt (fun p t x => vmul x (g (fst p) (snd p) t)) (list_prod (range 0 Nfoc) (range 0 np))) with (m := data) as [B1 B2].
  - intros [l i] Hk m. apply in_traces in Hk as [Hl Hi]. cbn [fst snd]. now apply HW.
  - apply list_prod_NoDup; apply range_NoDup.
  - intros [l i] [l' i'] Hk Hk' Ne. apply in_traces in Hk as [Hl Hi]. apply in_traces in Hk' as [Hl' Hi']. cbn [fst snd].
    replace (l * nxs * nt + i * nt) with ((l * nxs + i) * nt) by ring. replace (l' * nxs * nt + i' * nt) with ((l' * nxs + i') * nt) by ring.
    apply blocks_apart; try lia. exact Ne.
  - split.
    + intros l i t Hl Hi Ht. apply (B1 (l, i)); [now apply in_traces|exact Ht].
    + intros x Hx. apply B2. intros [l i] Hk. apply in_traces in Hk as [Hl Hi]. now apply Hx.
Qed.
End Values.
