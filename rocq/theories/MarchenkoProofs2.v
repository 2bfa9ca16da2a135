(** Lemmas about the positions, the threads of the integration and its result. *)
From Coq Require Import ZArith QArith Qround List Bool Lia Ring Permutation Sorted.
From Verif Require Import ListAux FdKernels FdProofs FdOutputProofs Marchenko MarchenkoSpec MarchenkoProofs.
Import ListNotations.
Local Open Scope Z_scope.

(** ** positions *)
Lemma linearsearch_in l v : (linearsearch l v <? length l)%nat = true <-> In v l.
Proof.
  rewrite Nat.ltb_lt. induction l as [|x l IH]; cbn [linearsearch length In]; [split; [lia|intros []]|].
  destruct (Z.eqb_spec v x) as [->|N]; [split; [now left|lia]|]. rewrite <- Nat.succ_lt_mono, IH. split; [now right|intros [E|H]; [congruence|assumption]].
Qed.
Lemma add_position_in l v x : In x (add_position l v) <-> In x l \/ x = v.
Proof.
  unfold add_position. destruct (linearsearch l v <? length l)%nat eqn:E.
  - apply linearsearch_in in E. split; [now left|intros [H| ->]; assumption].
  - rewrite in_app_iff. cbn. split; intros [H|H]; auto. destruct H; [auto|contradiction].
Qed.
Lemma add_position_NoDup l v : NoDup l -> NoDup (add_position l v).
Proof.
  intros H. unfold add_position. destruct (linearsearch l v <? length l)%nat eqn:E; [assumption|].
  apply Permutation_NoDup with (v :: l); [apply Permutation_cons_append|]. constructor; [|assumption].
  intros Hi. apply linearsearch_in in Hi. congruence.
Qed.
Lemma fold_positions {X} (p : X -> bool) (f : X -> Z) xs : forall l,
  let r := fold_left (fun l x => if p x then add_position l (f x) else l) xs l in
  (NoDup l -> NoDup r) /\ (forall v, In v r <-> In v l \/ exists x, In x xs /\ p x = true /\ v = f x).
Proof.
  induction xs as [|x xs IH]; intros l; cbn [fold_left]; [split; [auto|intros v; split; [now left|intros [H|(? & [] & _)]; assumption]]|].
  destruct (IH (if p x then add_position l (f x) else l)) as [I1 I2]. split.
  - intros ND. apply I1. destruct (p x); [now apply add_position_NoDup|assumption].
  - intros v. cbv zeta in I2. rewrite I2. destruct (p x) eqn:E; [rewrite add_position_in|]; split.
    + intros [[H| ->]|(y & Hy & Py & ->)]; [now left|right; exists x; cbn; auto|right; exists y; cbn; auto].
    + intros [H|(y & [<-|Hy] & Py & ->)]; [auto|auto|right; exists y; auto].
    + intros [H|(y & Hy & Py & ->)]; [now left|right; exists y; cbn; auto].
    + intros [H|(y & [<-|Hy] & Py & ->)]; [auto|congruence|right; exists y; auto].
Qed.
Lemma insert_perm v l : Permutation (insert v l) (v :: l).
Proof.
  induction l as [|x l IH]; cbn; [reflexivity|]. destruct (v <=? x); [reflexivity|]. rewrite IH. apply perm_swap.
Qed.
Lemma isort_perm l : Permutation (isort l) l.
Proof. induction l as [|x l IH]; cbn; [constructor|]. rewrite insert_perm. now constructor. Qed.
Lemma insert_sorted v l : StronglySorted Z.le l -> StronglySorted Z.le (insert v l).
Proof.
  induction 1 as [|x l S IH F]; cbn; [repeat constructor|]. destruct (Z.leb_spec v x).
  - constructor; [now constructor|]. constructor; [lia|]. eapply Forall_impl; [|exact F]. intros; lia.
  - constructor; [exact IH|]. apply Forall_forall. intros y Hy. apply (Permutation_in _ (insert_perm v l)) in Hy as [<-|Hy]; [lia|].
    rewrite Forall_forall in F. now apply F.
Qed.
Lemma isort_sorted l : StronglySorted Z.le (isort l).
Proof. induction l; cbn; [constructor|now apply insert_sorted]. Qed.
Lemma sorted_strict l : NoDup l -> StronglySorted Z.le l -> StronglySorted Z.lt l.
Proof.
  induction 2 as [|x l S IH F]; [constructor|]. inversion H; subst. constructor; [auto|]. rewrite Forall_forall in F |- *.
  intros y Hy. specialize (F y Hy). assert (x <> y) by (intros ->; contradiction). lia.
Qed.
(** rounding of a coordinate within half a step of the grid *)
Lemma NINT_range q n : (- (1 # 2) < q)%Q -> (q < inject_Z n - (1 # 2))%Q -> 0 <= NINT q < n.
Proof.
  intros H1 H2. unfold NINT. destruct (Qle_bool q 0) eqn:E.
  - apply Qle_bool_iff in E. destruct q as [a b]. unfold Qle, Qlt, Qminus, Qplus, Qopp, inject_Z in *. cbn in *.
    assert (Hq : Z.quot (a * 2 + Z.neg b) (Z.pos (b * 2)) = 0).
    { replace (a * 2 + Z.neg b) with (- (Z.pos b - a * 2)) by lia. rewrite Z.quot_opp_l by lia. rewrite Z.quot_small by lia. reflexivity. }
    rewrite Hq. split; [lia|]. nia.
  - assert (E' : (0 < q)%Q). { apply Qnot_le_lt. intros C. apply Qle_bool_iff in C. congruence. }
    destruct q as [a b]. unfold Qle, Qlt, Qminus, Qplus, Qopp, inject_Z in *. cbn in *.
    split; [apply Z.quot_pos; lia|]. apply Z.quot_lt_upper_bound; lia.
Qed.

(** ** threads *)
Section Team.
Variable V : Type.
Notation instr := (instr V).
Notation thread := (thread V).
Lemma serial_miss (p : list instr) : forall m x, ~ In x (map fst p) -> run_serial V m p x = m x.
Proof.
  induction p as [|[a f] p IH]; intros m x H; [reflexivity|]. cbn. unfold run_serial in IH. rewrite IH by (intros Hi; apply H; now right).
  apply upd_other. intros ->. apply H. now left.
Qed.
Lemma serial_hit (p : list instr) : forall m a f, NoDup (map fst p) -> In (a, f) p -> run_serial V m p a = f (m a).
Proof.
  induction p as [|[a' f'] p IH]; intros m a f ND Hi; [destruct Hi|]. cbn in ND. inversion ND as [|? ? N1 N2]; subst. cbn.
  change (fold_left _ p ?m0) with (run_serial V m0 p). destruct Hi as [E|Hi].
  - injection E as -> ->. rewrite serial_miss by assumption. now rewrite upd_same.
  - rewrite IH with (f := f) by assumption. rewrite upd_other; [reflexivity|]. intros ->. apply N1. apply in_map_iff. now exists (a', f).
Qed.
Lemma serial_app (p q : list instr) m : run_serial V m (p ++ q) = run_serial V (run_serial V m p) q.
Proof. unfold run_serial. now rewrite fold_left_app. Qed.
Lemma serial_ext (p : list instr) : forall m m', (forall x, m x = m' x) -> forall x, run_serial V m p x = run_serial V m' p x.
Proof.
  induction p as [|[a f] p IH]; intros m m' E x; [apply E|]. cbn. apply IH. intros y. unfold upd. destruct (y =? a); [now rewrite E|apply E].
Qed.

Section Inv.
Variables (m0 : Z -> V) (all : list instr).
Hypothesis ND : NoDup (map fst all).
Definition inv (s : (Z -> V) * list thread) : Prop := exists done,
  Permutation (done ++ flat_map (todo V) (snd s)) all /\
  (forall a f, In (a, f) done -> fst s a = f (m0 a)) /\
  (forall a f, In (a, f) (flat_map (todo V) (snd s)) -> fst s a = m0 a) /\
  (forall x, ~ In x (map fst all) -> fst s x = m0 x) /\
  Forall (fun t => match loaded V t with None => True | Some v => exists a f r, todo V t = (a, f) :: r /\ v = m0 a end) (snd s).
Lemma step_inv s p : inv s -> inv (step_team V s p).
Proof.
  intros (done & P & D & T & M & L). unfold step_team. destruct (nth_error (snd s) p) as [t|] eqn:E; [|now exists done].
  destruct (nth_error_split _ _ E) as (l1 & l2 & El & Elen). destruct s as [m ts]. cbn [fst snd] in *. subst ts.
  assert (F1 : firstn p (l1 ++ t :: l2) = l1) by (rewrite <- Elen, firstn_app, firstn_all, Nat.sub_diag; cbn; apply app_nil_r).
  assert (F2 : skipn (S p) (l1 ++ t :: l2) = l2).
  { rewrite <- Elen, skipn_app, skipn_all2 by lia. replace (S (length l1) - length l1)%nat with 1%nat by lia. reflexivity. }
  rewrite F1, F2. clear F1 F2 E. apply Forall_app in L as [L1 L2]. inversion L2 as [|? ? Lt L3]; subst.
  rewrite flat_map_app in P, T. cbn [flat_map] in P, T.
  unfold step_thread. destruct t as [ld td]. cbn [loaded todo] in *. destruct td as [|[a f] r].
  - exists done. cbn [fst snd]. rewrite flat_map_app. cbn [flat_map todo]. split; [exact P|]. split; [exact D|]. split; [exact T|]. split; [exact M|].
    apply Forall_app. split; [exact L1|]. constructor; [exact Lt|exact L3].
  - destruct ld as [v|].
    + destruct Lt as (a' & f' & r' & E1 & E2). injection E1 as <- <- <-. subst v.
      exists ((a, f) :: done). cbn [fst snd]. rewrite flat_map_app. cbn [flat_map todo].
      assert (P' : Permutation (((a, f) :: done) ++ flat_map (todo V) l1 ++ r ++ flat_map (todo V) l2) all).
      { rewrite <- P. cbn. apply Permutation_trans with (done ++ (a, f) :: flat_map (todo V) l1 ++ r ++ flat_map (todo V) l2); [apply Permutation_middle|].
        apply Permutation_app_head. cbn. apply Permutation_middle. }
      assert (ND' : NoDup (map fst (((a, f) :: done) ++ flat_map (todo V) l1 ++ r ++ flat_map (todo V) l2))) by (eapply Permutation_NoDup; [|exact ND]; apply Permutation_map; symmetry; exact P').
      cbn in ND'. inversion ND' as [|? ? N1 N2]; subst. rewrite map_app, in_app_iff in N1.
      split; [exact P'|]. split; [|split; [|split]].
      * intros a1 f1 [E|Hi]; [injection E as <- <-; apply upd_same|]. rewrite upd_other; [now apply D|]. intros ->. apply N1. left. apply in_map_iff. now exists (a, f1).
      * intros a1 f1 Hi. rewrite upd_other.
        -- apply (T a1 f1). rewrite !in_app_iff in *. cbn [In]. tauto.
        -- intros ->. apply N1. right. apply in_map_iff. now exists (a, f1).
      * intros x Hx. rewrite upd_other; [now apply M|]. intros ->. apply Hx. apply (Permutation_in _ (Permutation_map fst P')). now left.
      * apply Forall_app. split; [exact L1|]. constructor; [exact I|exact L3].
    + exists done. cbn [fst snd]. rewrite flat_map_app. cbn [flat_map todo]. split; [exact P|]. split; [exact D|]. split; [exact T|]. split; [exact M|].
      apply Forall_app. split; [exact L1|]. constructor; [|exact L3]. cbn. exists a, f, r. split; [reflexivity|]. apply (T a f). rewrite !in_app_iff. cbn. tauto.
Qed.
Lemma run_inv sched : forall s, inv s -> inv (run_team V s sched).
Proof. induction sched as [|p sched IH]; intros s H; [exact H|]. cbn. apply IH. now apply step_inv. Qed.
End Inv.
(** all interleavings of the loads and stores of the threads give the result of the loop *)
Lemma team_serial m0 (all : list instr) (progs : list (list instr)) sched : NoDup (map fst all) -> Permutation (concat progs) all ->
  let s := run_team V (m0, map (mk_thread V None) progs) sched in
  Forall (fun t => todo V t = []) (snd s) -> forall x, fst s x = run_serial V m0 all x.
Proof.
  intros ND P s Hd x.
  assert (I : inv m0 all s).
  { apply run_inv; [exact ND|]. exists []. cbn [fst snd app].
    assert (Ef : flat_map (todo V) (map (mk_thread V None) progs) = concat progs) by (rewrite flat_map_concat_map, map_map; cbn; now rewrite map_id).
    rewrite Ef. split; [exact P|]. split; [intros ? ? []|]. split; [reflexivity|]. split; [reflexivity|].
    apply Forall_forall. intros t Ht. apply in_map_iff in Ht as (pr & <- & _). exact I. }
  destruct I as (done & P' & D & _ & M & _).
  assert (E : flat_map (todo V) (snd s) = []).
  { clear - Hd. induction Hd as [|t ts H _ IH]; [reflexivity|]. cbn. now rewrite H, IH. }
  rewrite E, app_nil_r in P'. destruct (in_dec Z.eq_dec x (map fst all)) as [Hi|Hn].
  - apply in_map_iff in Hi as ([a f] & <- & Hi). cbn [fst]. rewrite serial_hit with (f := f) by assumption. apply D. now apply (Permutation_in _ (Permutation_sym P')).
  - rewrite serial_miss by assumption. now apply M.
Qed.
End Team.
Lemma NoDup_flat_map {X Y} (f : X -> list Y) xs : NoDup xs -> (forall x, In x xs -> NoDup (f x)) ->
  (forall x x' y, In x xs -> In x' xs -> In y (f x) -> In y (f x') -> x = x') -> NoDup (flat_map f xs).
Proof.
  induction 1 as [|x xs N ND IH]; intros H1 H2; [constructor|]. cbn.
  assert (D : forall (l1 l2 : list Y), NoDup l1 -> NoDup l2 -> (forall p, In p l1 -> ~ In p l2) -> NoDup (l1 ++ l2)).
  { induction 1 as [|p l1 Np N1 IH1]; intros N2 Hd; cbn; [assumption|]. constructor.
    - intros Hi. apply in_app_or in Hi as [Hi|Hi]; [contradiction|]. exact (Hd p (or_introl eq_refl) Hi).
    - apply IH1; [assumption|]. intros q Hq. apply Hd. now right. }
  apply D.
  - apply H1. now left.
  - apply IH; [intros; apply H1; now right|]. intros x1 x2 y Hx1 Hx2. apply H2; now right.
  - intros y Hy Hy'. apply in_flat_map in Hy' as (x' & Hx' & Hy'). assert (x = x') by (apply (H2 x x' y); auto; [now left|now right]). subst. contradiction.
Qed.

Section Sums.
Variables (V : Type) (v0 : V) (vadd : V -> V -> V).
Lemma fold_csum (f : Z -> V * V) n : fold_left (fun s i => cadd V vadd s (f i)) (range 0 n) (v0, v0) = csum V v0 vadd (Z.to_nat n) f.
Proof.
  destruct (Z.le_gt_cases 0 n) as [H|H]; [|rewrite range_nil by lia; now replace (Z.to_nat n) with O by lia].
  rewrite <- (Z2Nat.id n) at 1 by assumption. generalize (Z.to_nat n). clear n H. intros n. induction n as [|n IH]; [reflexivity|].
  rewrite Nat2Z.inj_succ. unfold Z.succ. rewrite range_snoc, fold_left_app by lia. cbn [fold_left csum]. now rewrite IH.
Qed.
Lemma csum_ext n f g : (forall i, 0 <= i < Z.of_nat n -> f i = g i) -> csum V v0 vadd n f = csum V v0 vadd n g.
Proof. induction n as [|n IH]; intros H; [reflexivity|]. cbn [csum]. rewrite IH by (intros; apply H; lia). now rewrite H by lia. Qed.
Lemma vsum_ext n f g : (forall i, 0 <= i < Z.of_nat n -> f i = g i) -> vsum V v0 vadd n f = vsum V v0 vadd n g.
Proof. induction n as [|n IH]; intros H; [reflexivity|]. cbn [vsum]. rewrite IH by (intros; apply H; lia). now rewrite H by lia. Qed.

End Sums.
(** ** the result of the integration *)
Section Synth.
Variable V : Type.
Variables (v0 v1 : V) (vadd vmul : V -> V -> V) (vopp : V -> V).
Hypothesis RT : ring_theory v0 v1 vadd vmul (vsub V vadd vopp) vopp eq.
Add Ring Vring2 : RT.
Variables (rc : (Z -> V) -> Z -> V * V) (cr : (Z -> V * V) -> Z -> V).
Variable A : acquisition V.
Notation NXS := (nxs V A).
Notation NTS := (nts V A).
Notation NW := (nw V A).

Lemma address_inj l x j l' x' j' : 0 <= x < NXS -> 0 <= x' < NXS -> 0 <= j < NTS -> 0 <= j' < NTS ->
  l * (NXS * NTS) + x * NTS + j = l' * (NXS * NTS) + x' * NTS + j' -> l = l' /\ x = x' /\ j = j'.
Proof.
  intros Hx Hx' Hj Hj' E. assert (E1 : (l * NXS + x) * NTS + j = (l' * NXS + x') * NTS + j') by lia.
  assert (E2 : l * NXS + x = l' * NXS + x') by nia. assert (E3 : l = l') by nia. subst. split; [reflexivity|]. split; nia.
Qed.

(** the stores of one iteration *)
Definition trace_work (ix : Z) (g : Z -> Z -> V -> V) : list (instr V) :=
  flat_map (fun l => map (fun j => (l * (NXS * NTS) + ix * NTS + j, g l j)) (range 0 NTS)) (range 0 (Nfoc V A)).
Lemma in_trace_work ix g a f : In (a, f) (trace_work ix g) <-> exists l j, 0 <= l < Nfoc V A /\ 0 <= j < NTS /\ a = l * (NXS * NTS) + ix * NTS + j /\ f = g l j.
Proof.
  unfold trace_work. rewrite in_flat_map. split.
  - intros (l & Hl & Hi). apply in_map_iff in Hi as (j & E & Hj). apply in_range in Hl, Hj. injection E as <- <-. exists l, j. auto.
  - intros (l & j & Hl & Hj & -> & ->). exists l. split; [now apply in_range|]. apply in_map_iff. exists j. split; [reflexivity|now apply in_range].
Qed.
Lemma trace_work_addr ix g a : In a (map fst (trace_work ix g)) <-> exists l j, 0 <= l < Nfoc V A /\ 0 <= j < NTS /\ a = l * (NXS * NTS) + ix * NTS + j.
Proof.
  rewrite in_map_iff. split.
  - intros ([a' f] & <- & Hi). apply in_trace_work in Hi as (l & j & Hl & Hj & -> & _). exists l, j. auto.
  - intros (l & j & Hl & Hj & ->). exists (l * (NXS * NTS) + ix * NTS + j, g l j). split; [reflexivity|]. apply in_trace_work. exists l, j. auto.
Qed.
Lemma map_flat_map {X Y W} (h : Y -> W) (f : X -> list Y) xs : map h (flat_map f xs) = flat_map (fun x => map h (f x)) xs.
Proof. induction xs as [|x xs IH]; cbn; [reflexivity|]. now rewrite map_app, IH. Qed.
Lemma trace_work_NoDup ix g : 0 <= ix < NXS -> NoDup (map fst (trace_work ix g)).
Proof.
  intros Hx. unfold trace_work. rewrite map_flat_map. apply NoDup_flat_map; [apply range_NoDup| |].
  - intros l _. rewrite map_map. cbn. apply map_range_NoDup. lia.
  - intros l l' a _ _ H1 H2. rewrite map_map in H1, H2. apply in_map_iff in H1 as (j & E1 & H1). apply in_map_iff in H2 as (j' & E2 & H2). apply in_range in H1, H2. cbn [fst] in *.
    destruct (address_inj l ix j l' ix j'); try assumption. congruence.
Qed.
Lemma trace_work_run ix g m l x j : 0 <= ix < NXS -> 0 <= l < Nfoc V A -> 0 <= x < NXS -> 0 <= j < NTS ->
  run_serial V m (trace_work ix g) (l * (NXS * NTS) + x * NTS + j) = if ix =? x then g l j (m (l * (NXS * NTS) + x * NTS + j)) else m (l * (NXS * NTS) + x * NTS + j).
Proof.
  intros Hix' Hl Hx Hj. destruct (Z.eqb_spec ix x) as [->|N].
  - rewrite serial_hit with (f := g l j); [reflexivity|now apply trace_work_NoDup|]. apply in_trace_work. exists l, j. auto.
  - apply serial_miss. intros Hi. apply trace_work_addr in Hi as (l' & j' & Hl' & Hj' & E). destruct (address_inj l x j l' ix j') as (_ & E' & _); auto.
Qed.
Section Stores.
Variable Fop : Z -> V * V.
Definition shot_store k l j (x : V) : V := vadd x (vmul (vmul (cr (shot_sum V v0 vadd vmul vopp A Fop k l) j) (scl V A)) (dx V A)).
Definition reci_store k l j (x : V) : V := vmul (ixmask V A k) (vadd x (vmul (vmul (cr (reci_sum V v0 vadd vmul vopp A Fop k l) j) (scl V A)) (dxsrc V A))).
Lemma shot_work_eq k : shot_work V v0 vadd vmul vopp cr A Fop k = if inside_shot V A k then trace_work (shot_at V A k) (shot_store k) else [].
Proof. reflexivity. Qed.
Lemma reci_work_eq k : reci_work V v0 vadd vmul vopp cr A Fop k = if isxcount V A k =? 0 then [] else trace_work k (reci_store k).
Proof. reflexivity. Qed.
Lemma reci_value m n l x j : n <= NXS -> 0 <= l < Nfoc V A -> 0 <= x < NXS -> 0 <= j < NTS -> 0 <= n ->
  run_serial V m (flat_map (reci_work V v0 vadd vmul vopp cr A Fop) (range 0 n)) (l * (NXS * NTS) + x * NTS + j) =
  if (x <? n) && negb (isxcount V A x =? 0) then reci_store x l j (m (l * (NXS * NTS) + x * NTS + j)) else m (l * (NXS * NTS) + x * NTS + j).
Proof.
  intros Hn Hl Hx Hj H0. revert Hn. pattern n. apply natlike_ind; [| |exact H0]; clear n H0.
  - intros _. rewrite range_nil by lia. rewrite (proj2 (Z.ltb_ge x 0)) by lia. reflexivity.
  - intros n H0 IH Hn. unfold Z.succ. rewrite range_snoc by lia. rewrite flat_map_app, serial_app. cbn [flat_map]. rewrite app_nil_r, reci_work_eq.
    destruct (isxcount V A n =? 0) eqn:E.
    + cbn [run_serial fold_left]. rewrite IH by lia. destruct (Z.eq_dec x n) as [->|N].
      * rewrite E. now rewrite !andb_false_r.
      * destruct (Z.ltb_spec x n), (Z.ltb_spec x (n + 1)); try (exfalso; lia); reflexivity.
    + rewrite trace_work_run by (try assumption; lia). rewrite IH by lia. destruct (Z.eqb_spec n x) as [->|N].
      * rewrite E. rewrite (proj2 (Z.ltb_ge x x)) by lia. rewrite (proj2 (Z.ltb_lt x (x + 1))) by lia. reflexivity.
      * destruct (Z.ltb_spec x n), (Z.ltb_spec x (n + 1)); try (exfalso; lia); reflexivity.
Qed.
Lemma shots_NoDup : geometry V A -> distinct_shots V A -> NoDup (map fst (flat_map (shot_work V v0 vadd vmul vopp cr A Fop) (range 0 (Z.of_nat (nshots V A))))).
Proof.
  intros G D. rewrite map_flat_map. apply NoDup_flat_map; [apply range_NoDup| |].
  - intros k Hk. apply in_range in Hk. rewrite shot_work_eq. destruct (inside_shot V A k) eqn:E; [|constructor]. apply trace_work_NoDup. now apply (g_src V A G).
  - intros k k' a Hk Hk' H1 H2. apply in_range in Hk, Hk'. rewrite shot_work_eq in H1, H2.
    destruct (inside_shot V A k) eqn:E; [|destruct H1]. destruct (inside_shot V A k') eqn:E'; [|destruct H2].
    apply trace_work_addr in H1 as (l & j & Hl & Hj & ->). apply trace_work_addr in H2 as (l' & j' & Hl' & Hj' & Ea).
    apply D; try assumption. apply (address_inj l _ j l' _ j'); try assumption; now apply (g_src V A G).
Qed.
Lemma reci_NoDup : NoDup (map fst (flat_map (reci_work V v0 vadd vmul vopp cr A Fop) (range 0 NXS))).
Proof.
  rewrite map_flat_map. apply NoDup_flat_map; [apply range_NoDup| |].
  - intros k Hk. apply in_range in Hk. rewrite reci_work_eq. destruct (isxcount V A k =? 0); [constructor|]. now apply trace_work_NoDup.
  - intros k k' a Hk Hk' H1 H2. apply in_range in Hk, Hk'. rewrite reci_work_eq in H1, H2.
    destruct (isxcount V A k =? 0); [destruct H1|]. destruct (isxcount V A k' =? 0); [destruct H2|].
    apply trace_work_addr in H1 as (l & j & Hl & Hj & ->). apply trace_work_addr in H2 as (l' & j' & Hl' & Hj' & Ea).
    apply (address_inj l _ j l' _ j'); assumption.
Qed.
End Stores.
Hypothesis rc_ext : forall f g, (forall j, 0 <= j < nts V A -> f j = g j) -> forall w, rc f w = rc g w.
Hypothesis rc_zero : forall w, rc (fun _ => v0) w = (v0, v0).
Hypothesis cr_ext : forall f g, (forall w, f w = g w) -> forall j, cr f j = cr g j.
Hypothesis G : geometry V A.

Lemma traces_spec (Top : Z -> V) mode l (ix : Z -> Z) n m : (forall i, 0 <= i < n -> 0 <= ix i < NXS) -> (forall i i', 0 <= i < n -> 0 <= i' < n -> ix i = ix i' -> i = i') ->
  let r := fold_left (fun m i => set_trace V vopp rc A m Top mode l i (ix i)) (range 0 n) m in
  (forall i iw, 0 <= i < n -> 0 <= iw < NW -> r (l * NXS * NW + iw * NXS + ix i) = conj_mode V vopp mode (rc (fun j => Top (l * (NXS * NTS) + i * NTS + j)) (nw_low V A + iw))) /\
  (forall x, (forall i iw, 0 <= i < n -> 0 <= iw < NW -> x <> l * NXS * NW + iw * NXS + ix i) -> r x = m x).
Proof.
  intros Hr Hinj r. unfold r, set_trace.
  rewrite (nested_fold (fun m i iw => upd m (l * NXS * NW + iw * NXS + ix i) (conj_mode V vopp mode (rc (fun j => Top (l * (NXS * NTS) + i * NTS + j)) (nw_low V A + iw))))).
  set (a := fun p : Z * Z => l * NXS * NW + snd p * NXS + ix (fst p)).
  set (g := fun (p : Z * Z) (_ : V * V) => conj_mode V vopp mode (rc (fun j => Top (l * (NXS * NTS) + fst p * NTS + j)) (nw_low V A + snd p))).
  assert (Ia : forall i iw, In (i, iw) (list_prod (range 0 n) (range 0 NW)) <-> 0 <= i < n /\ 0 <= iw < NW) by (intros; rewrite in_prod_iff, !in_range; reflexivity).
  split.
  - intros i iw Hi Hw. change (l * NXS * NW + iw * NXS + ix i) with (a (i, iw)). rewrite (fold_upd_hit a g); [reflexivity| |now apply Ia].
    assert (L : forall ps, NoDup ps -> (forall p q, In p ps -> In q ps -> a p = a q -> p = q) -> NoDup (map a ps)).
    { induction 1 as [|p ps N ND IH]; intros H; cbn; constructor.
      - intros Hin. apply in_map_iff in Hin as (q & E & Hq). rewrite (H q p) in Hq; auto; [now right|now left].
      - apply IH. intros; apply H; auto; now right. }
    apply L; [apply list_prod_NoDup; apply range_NoDup|]. intros [i1 w1] [i2 w2] H1 H2 E. apply Ia in H1 as [H1 W1]. apply Ia in H2 as [H2 W2]. unfold a in E. cbn [fst snd] in E.
    pose proof (Hr i1 H1). pose proof (Hr i2 H2). assert (w1 = w2) by nia. subst. f_equal. apply Hinj; lia.
  - intros x Hx. rewrite (fold_upd_miss a g); [reflexivity|]. intros Hin. apply in_map_iff in Hin as ([i iw] & <- & Hi). apply Ia in Hi as [Hi Hw]. now apply (Hx i iw).
Qed.

Variable ixpos : list Z.
Hypothesis Hnd : NoDup ixpos.
Hypothesis Hix : forall x, In x ixpos -> 0 <= x < NXS.
Lemma pos_in i : 0 <= i < Z.of_nat (length ixpos) -> nth_error ixpos (Z.to_nat i) = Some (nth (Z.to_nat i) ixpos 0).
Proof. intros H. apply nth_error_nth'. lia. Qed.
Definition holds (first : bool) (Top : Z -> V) (F : field V) : Prop :=
  if first then stored V A Top F else packed V A ixpos Top F /\ vanishes_off V v0 ixpos F.
Lemma set_operator_spec first Fop Top mode F : holds first Top F -> forall l iw x, 0 <= l < Nfoc V A -> 0 <= iw < NW -> 0 <= x < NXS ->
  set_operator V v0 vopp rc A first Fop Top mode ixpos (l * NXS * NW + iw * NXS + x) = spectrum V vopp rc mode F l x (nw_low V A + iw).
Proof.
  intros HF l iw x Hl Hw Hx. destruct G as [G1 G2 G3 _ _ _].
  unfold set_operator.
  set (B := fun l (m : Z -> V * V) => let m := fold_left (fun m a => upd m (l * NXS * NW + a) (v0, v0)) (range 0 (NXS * NW)) m in
    if first then fold_left (fun m i => set_trace V vopp rc A m Top mode l i i) (range 0 NXS) m
    else fold_left (fun m i => set_trace V vopp rc A m Top mode l i (nth (Z.to_nat i) ixpos 0)) (range 0 (Z.of_nat (length ixpos))) m).
  change (fold_left _ (range 0 (Nfoc V A)) Fop) with (fold_left (fun m l => B l m) (range 0 (Nfoc V A)) Fop).
  assert (HB : forall l m, 0 <= l < Nfoc V A ->
     (forall t, 0 <= t < NXS * NW -> B l m (l * NXS * NW + t) = spectrum V vopp rc mode F l (t mod NXS) (nw_low V A + t / NXS)) /\
     (forall a, ~ l * NXS * NW <= a < l * NXS * NW + NXS * NW -> B l m a = m a)).
  { clear l iw x Hl Hw Hx. intros l m Hl. unfold B.
    set (m1 := fold_left (fun m a => upd m (l * NXS * NW + a) (v0, v0)) (range 0 (NXS * NW)) m).
    assert (Z1 : forall t, 0 <= t < NXS * NW -> m1 (l * NXS * NW + t) = (v0, v0)).
    { intros t Ht. unfold m1. rewrite (fold_upd_hit (fun a => l * NXS * NW + a) (fun _ _ => (v0, v0))); [reflexivity|apply map_range_NoDup; lia|now apply in_range]. }
    assert (Z2 : forall a, ~ l * NXS * NW <= a < l * NXS * NW + NXS * NW -> m1 a = m a).
    { intros a Ha. unfold m1. apply (fold_upd_miss (fun a => l * NXS * NW + a) (fun _ _ => (v0, v0))). intros Hi. apply in_map_iff in Hi as (j & <- & Hj). apply in_range in Hj. lia. }
    assert (Tr : forall t, 0 <= t < NXS * NW -> 0 <= t mod NXS < NXS /\ 0 <= t / NXS < NW /\ t = t / NXS * NXS + t mod NXS).
    { intros t Ht. pose proof (Z.mod_pos_bound t NXS G1). pose proof (Z.div_mod t NXS ltac:(lia)). split; [assumption|]. split; [|lia]. split; [apply Z.div_pos; lia|]. apply Z.div_lt_upper_bound; lia. }
    assert (Wr : forall i iw, 0 <= i < NXS -> 0 <= iw < NW -> l * NXS * NW <= l * NXS * NW + iw * NXS + i < l * NXS * NW + NXS * NW) by (intros; nia).
    destruct first.
    - destruct (traces_spec Top mode l (fun i => i) NXS m1) as [T1 T2]; [auto|auto|]. split.
      + intros t Ht. destruct (Tr t Ht) as (H1 & H2 & H3). rewrite H3 at 1. rewrite Z.add_assoc. cbv zeta beta in T1. rewrite T1 by assumption.
        unfold spectrum, conj_mode. assert (E : rc (fun j => Top (l * (NXS * NTS) + t mod NXS * NTS + j)) (nw_low V A + t / NXS) = rc (F l (t mod NXS)) (nw_low V A + t / NXS)).
        { apply rc_ext. intros j Hj. rewrite <- (HF l (t mod NXS) j) by assumption. f_equal. lia. }
        now rewrite E.
      + intros a Ha. cbv zeta beta in T2. rewrite T2; [now apply Z2|]. intros i iw Hi Hw ->. apply Ha. now apply Wr.
    - destruct HF as [HP HV]. set (n := Z.of_nat (length ixpos)).
      assert (Hr : forall i, 0 <= i < n -> 0 <= nth (Z.to_nat i) ixpos 0 < NXS) by (intros i Hi; apply Hix, nth_In; unfold n in Hi; lia).
      assert (Hinj : forall i i', 0 <= i < n -> 0 <= i' < n -> nth (Z.to_nat i) ixpos 0 = nth (Z.to_nat i') ixpos 0 -> i = i').
      { intros i i' Hi Hi' E. unfold n in *. assert (Z.to_nat i = Z.to_nat i'); [|lia]. apply (proj1 (NoDup_nth ixpos 0) Hnd); lia. }
      destruct (traces_spec Top mode l (fun i => nth (Z.to_nat i) ixpos 0) n m1) as [T1 T2]; [exact Hr|exact Hinj|]. cbv zeta beta in T1, T2. split.
      + intros t Ht. destruct (Tr t Ht) as (H1 & H2 & H3). destruct (in_dec Z.eq_dec (t mod NXS) ixpos) as [Hi|Hn].
        * apply (In_nth ixpos (t mod NXS) 0) in Hi as (i & Hi & Ei). rewrite H3 at 1. rewrite Z.add_assoc. rewrite <- Ei at 1. specialize (T1 (Z.of_nat i) (t / NXS)). rewrite Nat2Z.id in T1. rewrite T1 by (unfold n; lia).
          unfold spectrum, conj_mode. assert (E : rc (fun j => Top (l * (NXS * NTS) + Z.of_nat i * NTS + j)) (nw_low V A + t / NXS) = rc (F l (t mod NXS)) (nw_low V A + t / NXS)).
          { apply rc_ext. intros j Hj. rewrite <- (HP l j Hl Hj i (t mod NXS)); [f_equal; lia|]. rewrite <- Ei. now apply nth_error_nth'. }
          now rewrite E.
        * rewrite T2.
          -- rewrite Z1 by assumption. unfold spectrum. rewrite (rc_ext (F l (t mod NXS)) (fun _ => v0)) by (intros; now apply HV). rewrite rc_zero. destruct mode; [reflexivity|]. cbn. f_equal. ring.
          -- intros i iw Hi Hw E. apply Hn. assert (E2 : t mod NXS = nth (Z.to_nat i) ixpos 0).
             { pose proof (Hr i Hi). assert (iw = t / NXS) by nia. nia. }
             rewrite E2. apply nth_In. unfold n in Hi. lia.
      + intros a Ha. rewrite T2; [now apply Z2|]. intros i iw Hi Hw ->. apply Ha. apply Wr; [now apply Hr|assumption]. }
  destruct (fold_blocks B (fun l => l * NXS * NW) (NXS * NW) (fun l t _ => spectrum V vopp rc mode F l (t mod NXS) (nw_low V A + t / NXS)) (range 0 (Nfoc V A))) with (m := Fop) as [B1 _].
  - intros k Hk m. apply in_range in Hk. now apply HB.
  - apply range_NoDup.
  - intros k k' Hk Hk' Ne. apply in_range in Hk, Hk'. assert (0 <= NXS * NW) by nia. rewrite <- !Z.mul_assoc. destruct (Z.lt_ge_cases k k'); [left|right]; nia.
  - rewrite <- Z.add_assoc. rewrite B1; [|now apply in_range|nia]. f_equal; [rewrite Z.add_comm, Z.mod_add by lia; apply Z.mod_small; lia|].
    rewrite Z.add_comm, Z.div_add_l by lia. rewrite (Z.div_small x) by lia. lia.
Qed.

Section Op.
Variables (Fop : Z -> V * V) (mode : bool) (F : field V).
Hypothesis HF : forall l iw x, 0 <= l < Nfoc V A -> 0 <= iw < NW -> 0 <= x < NXS -> Fop (l * NXS * NW + iw * NXS + x) = spectrum V vopp rc mode F l x (nw_low V A + iw).
Lemma shot_sum_spec k l w : 0 <= k < Z.of_nat (nshots V A) -> inside_shot V A k = true -> 0 <= l < Nfoc V A ->
  shot_sum V v0 vadd vmul vopp A Fop k l w = shot_integral V v0 vadd vmul vopp rc A mode F k l w.
Proof.
  intros Hk Hin Hl. unfold shot_sum, shot_integral, in_band. destruct (Z.leb_spec 0 (w - nw_low V A)), (Z.ltb_spec (w - nw_low V A) NW), (Z.leb_spec (nw_low V A) w), (Z.ltb_spec w (nw_low V A + NW)); cbn [andb]; try (exfalso; lia); try reflexivity.
  rewrite fold_csum. apply csum_ext. intros i Hi. f_equal. unfold ixrcv. change (position (fxsb V A) (dxs V A) (xrcv V A (k * nx V A + i))) with (receiver_at V A k i).
  replace (l * NW * NXS) with (l * NXS * NW) by ring. rewrite HF; [|assumption|lia|apply (g_rcv V A G); [assumption|assumption|lia]]. f_equal. lia.
Qed.
Lemma reci_sum_spec x l w : 0 <= x < NXS -> 0 <= l < Nfoc V A ->
  reci_sum V v0 vadd vmul vopp A Fop x l w = reciprocal_integral V v0 vadd vmul vopp rc A mode F x l w.
Proof.
  intros Hk Hl. unfold reci_sum, reciprocal_integral, in_band. destruct (Z.leb_spec 0 (w - nw_low V A)), (Z.ltb_spec (w - nw_low V A) NW), (Z.leb_spec (nw_low V A) w), (Z.ltb_spec w (nw_low V A + NW)); cbn [andb]; try (exfalso; lia); try reflexivity.
  rewrite fold_csum. apply csum_ext. intros i Hi. cbv zeta. f_equal.
  change (position (fxsb V A) (dxs V A) (nth (Z.to_nat (reci_xrcv V A (x * NXS + i))) (xsrc V A) 0%Q)) with (shot_at V A (reci_xrcv V A (x * NXS + i))).
  replace (l * NW * NXS) with (l * NXS * NW) by ring. rewrite HF; [|assumption|lia|apply (g_rec V A G); [assumption|lia]]. f_equal. lia.
Qed.

Lemma shots_value n l x j : (n <= nshots V A)%nat -> 0 <= l < Nfoc V A -> 0 <= x < NXS -> 0 <= j < NTS ->
  run_serial V (fun _ => v0) (flat_map (shot_work V v0 vadd vmul vopp cr A Fop) (range 0 (Z.of_nat n))) (l * (NXS * NTS) + x * NTS + j) =
  vsum V v0 vadd n (fun k => if inside_shot V A k && (shot_at V A k =? x) then vmul (vmul (cr (shot_integral V v0 vadd vmul vopp rc A mode F k l) j) (scl V A)) (dx V A) else v0).
Proof.
  intros Hn Hl Hx Hj. induction n as [|n IH]; [reflexivity|]. rewrite Nat2Z.inj_succ. unfold Z.succ. rewrite range_snoc by lia.
  rewrite flat_map_app, serial_app. cbn [flat_map vsum]. rewrite app_nil_r, shot_work_eq. destruct (inside_shot V A (Z.of_nat n)) eqn:E; cbn [andb].
  - rewrite trace_work_run; [|apply (g_src V A G); [lia|assumption]|assumption|assumption|assumption]. rewrite IH by lia. destruct (shot_at V A (Z.of_nat n) =? x); [|ring].
    unfold shot_store. f_equal. f_equal. f_equal. apply cr_ext. intros w. apply shot_sum_spec; [lia|assumption|assumption].
  - cbn [run_serial fold_left]. rewrite IH by lia. ring.
Qed.
End Op.

Lemma synthesis_spec first Fop Top mode reci F : holds first Top F -> forall l x j, 0 <= l < Nfoc V A -> 0 <= x < NXS -> 0 <= j < NTS ->
  snd (synthesis V v0 vadd vmul vopp rc cr A first Fop Top mode reci ixpos) (l * NXS * NTS + x * NTS + j) = integrated V v0 vadd vmul vopp rc cr A mode reci F l x j.
Proof.
  intros HF l x j Hl Hx Hj. unfold synthesis. cbv zeta. cbn [snd]. set (Fop' := set_operator V v0 vopp rc A first Fop Top mode ixpos).
  assert (HO : forall l iw x, 0 <= l < Nfoc V A -> 0 <= iw < NW -> 0 <= x < NXS -> Fop' (l * NXS * NW + iw * NXS + x) = spectrum V vopp rc mode F l x (nw_low V A + iw)) by (intros; now apply set_operator_spec).
  rewrite <- Z.mul_assoc.
  set (m := if (reci =? 0) || (reci =? 1) then _ else _).
  assert (Hm : m (l * (NXS * NTS) + x * NTS + j) = if (reci =? 0) || (reci =? 1) then
      vsum V v0 vadd (nshots V A) (fun k => if inside_shot V A k && (shot_at V A k =? x) then vmul (vmul (cr (shot_integral V v0 vadd vmul vopp rc A mode F k l) j) (scl V A)) (dx V A) else v0) else v0).
  { unfold m. destruct ((reci =? 0) || (reci =? 1)); [|reflexivity]. apply shots_value; auto. }
  unfold integrated. cbv zeta. rewrite <- Hm. destruct (reci =? 0) eqn:E; cbn [orb]; [reflexivity|].
  rewrite reci_value; try assumption; [|lia|lia]. rewrite (proj2 (Z.ltb_lt x NXS)) by lia. cbn [andb]. destruct (isxcount V A x =? 0); cbn [negb]; [reflexivity|].
  unfold reci_store. f_equal. f_equal. f_equal. f_equal. apply cr_ext. intros w. now apply reci_sum_spec with (mode := mode).
Qed.
End Synth.
