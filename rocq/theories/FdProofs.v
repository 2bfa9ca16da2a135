(** Worksharing loops without conflicting accesses: any team computes what one thread computes. *)
From Coq Require Import ZArith List Bool QArith Permutation Lia.
From Verif Require Import ListAux FdMachine FdKernels.
Import ListNotations.
Local Open Scope Z_scope.

Definition fieldof (l : loc) : field := fst (fst l).

(** no two assignments write the same element, and no assignment reads what another writes *)
Definition conflict_free (l : list action) : Prop :=
  NoDup (map tgt l) /\ forall a b, In a l -> In b l -> In (tgt a) (reads (rhs b)) -> tgt a = tgt b.

Section Team.
Context {V : Type} (O : ops V).
Notation eval := (eval O). Notation exec_all := (exec_all O). Notation step := (step O). Notation steps := (steps O).

(** all right-hand sides evaluated before the first store *)
Fixpoint sim (l : list action) (m : mem) (k : loc) : V :=
  match l with
  | [] => m k
  | a :: r => if loc_eq_dec k (tgt a) then eval m (rhs a) else sim r m k
  end.

Lemma sim_in l m a : NoDup (map tgt l) -> In a l -> sim l m (tgt a) = eval m (rhs a).
Proof.
  induction l as [|b r IH]; intros N I; [destruct I|]. cbn [sim]. inversion N as [|? ? NI N']; subst.
  destruct I as [->|I]; [destruct (loc_eq_dec _ _); congruence|].
  destruct (loc_eq_dec (tgt a) (tgt b)) as [e|_]; [exfalso; apply NI; rewrite <- e; apply in_map, I|]. now apply IH.
Qed.
Lemma sim_out l m k : ~ In k (map tgt l) -> sim l m k = m k.
Proof.
  induction l as [|b r IH]; intros N; [reflexivity|]. cbn [sim]. cbn in N.
  destruct (loc_eq_dec k (tgt b)) as [e|_]; [exfalso; apply N; left; congruence|]. apply IH; tauto.
Qed.

Lemma eval_ext m m' e : (forall l, In l (reads e) -> m l = m' l) -> eval m e = eval m' e.
Proof.
  induction e; intros H; cbn in *; try reflexivity; try (apply H; now left);
    try (rewrite IHe1, IHe2; [reflexivity|intros; apply H; apply in_or_app; now right|intros; apply H; apply in_or_app; now left]).
  now rewrite IHe by exact H.
Qed.

Lemma eval_loaded_map m : forall e vs, eval_loaded O e (map m (reads e) ++ vs) = (eval m e, vs).
Proof.
  induction e; intros vs; cbn [eval_loaded reads map app FdMachine.eval]; try reflexivity;
    try (rewrite map_app, <- app_assoc, IHe1, IHe2; reflexivity).
  now rewrite IHe.
Qed.

Definition settled (l : list action) (m0 : mem) (todo : list action) (m : mem) : Prop :=
  forall k, m k = if in_dec loc_eq_dec k (map tgt todo) then m0 k else sim l m0 k.

Lemma settled_read l m0 todo m a k : conflict_free l -> incl todo l -> settled l m0 todo m ->
  In a todo -> In k (reads (rhs a)) -> m k = m0 k.
Proof.
  intros [N C] I S Ha Hk. rewrite S. destruct (in_dec _ _ _) as [|n]; [reflexivity|].
  destruct (in_dec loc_eq_dec k (map tgt l)) as [i|o]; [|now apply sim_out].
  apply in_map_iff in i as (b & <- & Hb). exfalso. apply n.
  rewrite (C b a Hb (I a Ha) Hk). now apply in_map.
Qed.

Lemma settled_store l m0 todo m a rest v : conflict_free l -> incl todo l -> settled l m0 todo m ->
  Permutation todo (a :: rest) -> NoDup (map tgt todo) -> v = eval m0 (rhs a) ->
  settled l m0 rest (upd m (tgt a) v).
Proof.
  intros [N C] I S P ND -> k. unfold upd.
  assert (Ha : In a todo) by (eapply Permutation_in; [symmetry; exact P|now left]).
  assert (ND' : NoDup (map tgt (a :: rest))) by (eapply Permutation_NoDup; [apply Permutation_map; exact P|exact ND]).
  cbn in ND'. inversion ND' as [|? ? NI ND'']; subst.
  destruct (loc_eq_dec k (tgt a)) as [->|ne].
  - destruct (in_dec _ _ _) as [i|_]; [contradiction|]. symmetry. apply sim_in; auto.
  - rewrite S. destruct (in_dec _ k (map tgt todo)) as [i|o], (in_dec _ k (map tgt rest)) as [i'|o']; try reflexivity; exfalso.
    + apply (Permutation_in (l' := map tgt (a :: rest))) in i; [|now apply Permutation_map]. cbn in i. destruct i; [congruence|contradiction].
    + apply o. apply (Permutation_in (l := map tgt (a :: rest))); [apply Permutation_map; now symmetry|]. now right.
Qed.

(** one thread *)
Lemma exec_all_settled l m0 : conflict_free l -> forall todo m, incl todo l -> NoDup (map tgt todo) -> settled l m0 todo m ->
  forall k, exec_all todo m k = sim l m0 k.
Proof.
  intros C. induction todo as [|a r IH]; intros m I N S k.
  - cbn. now rewrite S.
  - cbn [FdMachine.exec_all fold_left]. unfold FdMachine.exec_all in IH. apply IH.
    + intros x Hx. apply I. now right.
    + now inversion N.
    + unfold exec. eapply settled_store; eauto.
      apply eval_ext. intros x Hx. eapply settled_read; eauto. now left.
Qed.
Lemma settled_start l m0 m : (forall k, m k = m0 k) -> settled l m0 l m.
Proof.
  intros E k. destruct (in_dec _ _ _) as [|n]; [apply E|]. rewrite E. symmetry. now apply sim_out.
Qed.
Theorem exec_all_sim l m : conflict_free l -> forall k, exec_all l m k = sim l m k.
Proof. intros C. apply exec_all_settled; [exact C|now intros x|apply C|now apply settled_start]. Qed.

(** a team *)
Definition todos (ts : list thread) : list action := flat_map (@todo V) ts.
Definition loaded_ok (m0 : mem) (t : thread (V := V)) : Prop :=
  match todo t with [] => True | a :: _ => loaded t = map m0 (firstn (length (loaded t)) (reads (rhs a))) end.

Lemma todos_split before t after : todos (before ++ t :: after) = todos before ++ todo t ++ todos after.
Proof. unfold todos. now rewrite flat_map_app. Qed.

Lemma firstn_snoc {A} (l : list A) n x : nth_error l n = Some x -> firstn (S n) l = firstn n l ++ [x].
Proof. revert n; induction l; intros [|n] H; cbn in *; try discriminate; [now inversion H|]. rewrite (IHl _ H). reflexivity. Qed.

Lemma steps_settled l m0 : conflict_free l -> forall c c', steps c c' ->
  incl (todos (snd c)) l -> NoDup (map tgt (todos (snd c))) -> Forall (loaded_ok m0) (snd c) -> settled l m0 (todos (snd c)) (fst c) ->
  finished (snd c') -> forall k, fst c' k = sim l m0 k.
Proof.
  intros C c c' H. induction H as [c|c c' c'' S SS IH]; intros I N L St F k.
  - rewrite St. assert (E : todos (snd c) = []).
    { clear -F. unfold todos. induction F as [|t r E F IHF]; [reflexivity|]. cbn. now rewrite E, IHF. }
    rewrite E. reflexivity.
  - destruct S as [m before a rest vs after x Hx|m before a rest vs after Hl]; cbn [fst snd] in *.
    + rewrite todos_split in *. cbn [todo] in *. apply IH; auto; clear IH.
      * apply Forall_app in L as [L1 L2]. apply Forall_app; split; [exact L1|]. apply Forall_cons_iff in L2 as [L2 L3].
        constructor; [|exact L3]. unfold loaded_ok in *. cbn [todo loaded] in *.
        rewrite app_length. cbn [length]. rewrite Nat.add_1_r, (firstn_snoc _ _ _ Hx), map_app, <- L2. cbn [map]. do 2 f_equal.
        eapply settled_read; [exact C|exact I|exact St|apply in_or_app; right; now left|]. eapply nth_error_In; eauto.
    + rewrite todos_split in *. cbn [todo] in *.
      assert (P : Permutation (todos before ++ (a :: rest) ++ todos after) (a :: todos before ++ rest ++ todos after))
        by (symmetry; apply Permutation_middle).
      apply IH; auto; clear IH.
      * intros y Hy. apply I. rewrite !in_app_iff in *. cbn. tauto.
      * apply (Permutation_NoDup (Permutation_map tgt P)) in N. cbn in N. now inversion N.
      * apply Forall_app in L as [L1 L2]. apply Forall_app; split; [exact L1|]. apply Forall_cons_iff in L2 as [L2 L3].
        constructor; [|exact L3]. unfold loaded_ok. cbn. destruct rest; reflexivity.
      * apply Forall_app in L as [L1 L2]. apply Forall_cons_iff in L2 as [L2 L3]. unfold loaded_ok in L2. cbn [todo loaded] in L2.
        eapply settled_store; eauto.
        rewrite L2, Hl, firstn_all. rewrite <- (app_nil_r (map m0 _)), eval_loaded_map. reflexivity.
Qed.

Theorem team_phase_sim threads p m m' : conflict_free (flat_map (work threads) p) -> team_phase O threads p m m' ->
  forall k, m' k = sim (flat_map (work threads) p) m k.
Proof.
  intros C (ts & ts' & _ & P & S & F).
  assert (E : todos (map (fun l => mk_thread (V := V) l []) ts) = concat ts).
  { clear. unfold todos. induction ts; cbn; [reflexivity|]. now rewrite IHts. }
  apply (steps_settled _ m C _ _ S); cbn [fst snd]; rewrite ?E; auto.
  - intros x Hx. now apply (Permutation_in _ P).
  - apply (Permutation_NoDup (Permutation_map tgt (Permutation_sym P))), C.
  - clear. induction ts; constructor; auto. unfold loaded_ok. cbn. now destruct a.
  - intros k. destruct (in_dec loc_eq_dec k (map tgt (concat ts))) as [|n]; [reflexivity|].
    symmetry. apply sim_out. intros i. apply n. apply (Permutation_in _ (Permutation_map tgt (Permutation_sym P))), i.
Qed.

(** the whole kernel *)
Definition race_free (threads : nat) (prog : list item) : Prop :=
  Forall (fun p => conflict_free (flat_map (work threads) p)) (phases prog).
Definition no_all (i : item) : Prop := match i with All _ => False | _ => True end.

Lemma sim_ext l m m' : (forall k, m k = m' k) -> forall k, sim l m k = sim l m' k.
Proof.
  intros E. induction l as [|a r IH]; intros k; cbn [sim]; [apply E|]. destruct (loc_eq_dec _ _); [|apply IH].
  apply eval_ext. intros; apply E.
Qed.
Lemma exec_all_app a b m : exec_all (a ++ b) m = exec_all b (exec_all a m).
Proof. unfold FdMachine.exec_all. now rewrite fold_left_app. Qed.
Lemma exec_all_ext l : forall m m', (forall k, m k = m' k) -> forall k, exec_all l m k = exec_all l m' k.
Proof.
  induction l as [|a r IH]; intros m m' E k; [apply E|]. cbn [FdMachine.exec_all fold_left].
  apply IH. intros j. unfold exec, upd. destruct (loc_eq_dec _ _); [apply eval_ext; intros; apply E|apply E].
Qed.

Lemma phases_cons i r : i <> Barrier -> exists p ps, phases r = p :: ps /\ phases (i :: r) = (i :: p) :: ps.
Proof.
  intros N. assert (H : exists p ps, phases r = p :: ps).
  { clear. induction r as [|j r (p & ps & E)]; [exists [], []; reflexivity|]. destruct j; cbn; rewrite ?E; eauto. }
  destruct H as (p & ps & E). exists p, ps. split; [exact E|]. destruct i; cbn; rewrite ?E; congruence.
Qed.
Lemma phases_flat threads prog : flat_map (work threads) prog = flat_map (work threads) (concat (phases prog)).
Proof.
  induction prog as [|i r IH]; [reflexivity|].
  destruct i; [destruct (phases_cons (For l) r) as (p & ps & E & ->); [congruence|]
              |destruct (phases_cons (All l) r) as (p & ps & E & ->); [congruence|]|cbn; exact IH];
    rewrite E in IH; cbn [concat] in *; cbn [flat_map app]; now rewrite IH.
Qed.
Lemma phases_no_all prog : Forall no_all prog -> Forall (Forall no_all) (phases prog).
Proof.
  induction prog as [|i r IH]; intros H; [repeat constructor|]. apply Forall_cons_iff in H as [Hi Hr]. specialize (IH Hr).
  destruct i; [destruct (phases_cons (For l) r) as (p & ps & E & ->); [congruence|]
              |destruct (phases_cons (All l) r) as (p & ps & E & ->); [congruence|]|cbn; constructor; auto];
    rewrite E in IH; apply Forall_cons_iff in IH as [? ?]; constructor; auto.
Qed.
Lemma work_no_all threads p : Forall no_all p -> flat_map (work threads) p = flat_map (work 1) p.
Proof. induction 1 as [|i r Hi Hr IH]; [reflexivity|]. cbn [flat_map]. rewrite IH. now destruct i; [|destruct Hi|]. Qed.

Lemma team_run_serial threads : forall ps m m', Forall (fun p => conflict_free (flat_map (work threads) p)) ps -> Forall (Forall no_all) ps ->
  team_run O threads ps m m' -> forall k, m' k = exec_all (flat_map (work 1) (concat ps)) m k.
Proof.
  intros ps m m' C A R. induction R as [|p ps m m1 m2 H R IH]; intros k; [reflexivity|].
  apply Forall_cons_iff in C as [C1 C2], A as [A1 A2].
  cbn [concat]. rewrite flat_map_app, exec_all_app, IH by assumption. apply exec_all_ext. intros j.
  rewrite (team_phase_sim _ _ _ _ C1 H), exec_all_sim; rewrite <- (work_no_all threads); auto.
Qed.
Theorem team_serial threads prog m m' : race_free threads prog -> Forall no_all prog -> team_run O threads (phases prog) m m' ->
  forall k, m' k = serial O prog m k.
Proof.
  intros C A R k. unfold serial. rewrite phases_flat. eapply team_run_serial; eauto using phases_no_all.
Qed.

(** a team can always finish: the first thread does everything *)
Lemma steps_trans c c' c'' : steps c c' -> steps c' c'' -> steps c c''.
Proof. induction 1; intros; [assumption|]. econstructor; eauto. Qed.
Lemma load_all m a rest after : forall n vs, (length vs + n = length (reads (rhs a)))%nat ->
  exists vs', length vs' = length (reads (rhs a)) /\ steps (m, mk_thread (a :: rest) vs :: after) (m, mk_thread (a :: rest) vs' :: after).
Proof.
  induction n as [|n IH]; intros vs E.
  - exists vs. split; [lia|constructor].
  - destruct (nth_error (reads (rhs a)) (length vs)) as [x|] eqn:Ex; [|apply nth_error_None in Ex; lia].
    destruct (IH (vs ++ [m x])) as (vs' & L & S); [rewrite app_length; cbn; lia|]. exists vs'. split; [exact L|].
    eapply steps_next; [|exact S]. apply (step_load O m [] a rest vs after x Ex).
Qed.
Lemma first_finishes : forall l m after, exists m', steps (m, mk_thread l [] :: after) (m', mk_thread [] [] :: after).
Proof.
  induction l as [|a r IH]; intros m after; [eexists; constructor|].
  destruct (load_all m a r after (length (reads (rhs a))) []) as (vs & L & S); [reflexivity|].
  destruct (IH (upd m (tgt a) (fst (eval_loaded O (rhs a) vs))) after) as (m' & S'). exists m'.
  eapply steps_trans; [exact S|]. eapply steps_next; [|exact S']. now apply (step_store O m [] a r vs after).
Qed.
Theorem team_run_exists threads prog m : (0 < threads)%nat -> exists m', team_run O threads (phases prog) m m'.
Proof.
  intros T. revert m. induction (phases prog) as [|p ps IH]; intros m; [eexists; constructor|].
  destruct threads as [|n]; [lia|].
  destruct (first_finishes (flat_map (work (S n)) p) m (map (fun l => mk_thread l []) (repeat [] n))) as (m1 & St).
  destruct (IH m1) as (m2 & R). exists m2. econstructor; [|exact R].
  exists (flat_map (work (S n)) p :: repeat [] n). eexists. conjs; [cbn; now rewrite repeat_length| |exact St|].
  - cbn [concat]. replace (concat (repeat [] n)) with (@nil action) by (clear; induction n; cbn; auto). now rewrite app_nil_r.
  - constructor; [reflexivity|]. clear. induction n; cbn; constructor; auto.
Qed.
End Team.

(** ** criteria *)
Lemma conflict_free_fields l (W : list field) : NoDup (map tgt l) -> Forall (fun a => In (fieldof (tgt a)) W) l ->
  Forall (fun a => forall x, In x (reads (rhs a)) -> In (fieldof x) W -> x = tgt a) l -> conflict_free l.
Proof.
  intros N F R. split; [exact N|]. intros a b Ha Hb Hr. rewrite Forall_forall in *.
  apply (R b Hb _ Hr). now apply F.
Qed.
Lemma conflict_free_nil : conflict_free [].
Proof. split; [constructor|intros ? ? []]. Qed.

Lemma in_range a b x : In x (range a b) <-> a <= x < b.
Proof.
  unfold range. rewrite in_map_iff. split.
  - intros (k & <- & H). apply in_seq in H. lia.
  - intros H. exists (Z.to_nat (x - a)). split; [lia|]. apply in_seq. lia.
Qed.
Lemma NoDup_range a b : NoDup (range a b).
Proof. unfold range. apply FinFun.Injective_map_NoDup; [intros x y; lia|apply seq_NoDup]. Qed.
Lemma in_loop x0 x1 z0 z1 body a : In a (loop x0 x1 z0 z1 body) <-> exists ix iz, x0 <= ix < x1 /\ z0 <= iz < z1 /\ In a (body ix iz).
Proof.
  unfold loop. rewrite in_flat_map. split.
  - intros (ix & Hx & H). apply in_flat_map in H as (iz & Hz & H). rewrite in_range in *. eauto.
  - intros (ix & iz & Hx & Hz & H). exists ix. rewrite in_range. split; [exact Hx|]. apply in_flat_map. exists iz. now rewrite in_range.
Qed.

Lemma NoDup_app_iff {A} (a b : list A) : NoDup a -> NoDup b -> (forall x, In x a -> ~ In x b) -> NoDup (a ++ b).
Proof.
  intros Na Nb D. induction Na as [|x r Hx Nr IH]; [exact Nb|]. cbn. constructor.
  - rewrite in_app_iff. intros [|i]; [contradiction|]. apply (D x); [now left|exact i].
  - apply IH. intros y Hy. apply D. now right.
Qed.
Lemma NoDup_flat_map {A B} (f : A -> list B) (l : list A) : NoDup l -> (forall x, In x l -> NoDup (f x)) ->
  (forall x y b, In x l -> In y l -> In b (f x) -> In b (f y) -> x = y) -> NoDup (flat_map f l).
Proof.
  intros N F D. induction N as [|x r Hx N IH]; [constructor|]. cbn. apply NoDup_app_iff.
  - apply F. now left.
  - apply IH; intros; [apply F; now right|]. eapply D; eauto; now right.
  - intros b Hb Hb'. apply in_flat_map in Hb' as (y & Hy & Hb'). apply Hx.
    rewrite (D x y b); auto; [now left|now right].
Qed.
Lemma map_flat_map {A B C} (g : B -> C) (f : A -> list B) l : map g (flat_map f l) = flat_map (fun x => map g (f x)) l.
Proof. induction l; cbn; [reflexivity|]. now rewrite map_app, IHl. Qed.

(** every iteration writes elements of its own cell, in different fields *)
Lemma NoDup_loop x0 x1 z0 z1 body : (forall ix iz, x0 <= ix < x1 -> z0 <= iz < z1 -> NoDup (map tgt (body ix iz))) ->
  (forall ix iz a, In a (body ix iz) -> snd (fst (tgt a)) = ix /\ snd (tgt a) = iz) -> NoDup (map tgt (loop x0 x1 z0 z1 body)).
Proof.
  intros N C. unfold loop. rewrite map_flat_map. apply NoDup_flat_map; [apply NoDup_range| |].
  - intros ix Hx. rewrite map_flat_map. apply NoDup_flat_map; [apply NoDup_range| |].
    + intros iz Hz. rewrite in_range in *. now apply N.
    + intros iz iz' l _ _ H H'. apply in_map_iff in H as (a & <- & Ha), H' as (a' & E & Ha').
      apply C in Ha, Ha'. rewrite E in Ha'. destruct Ha, Ha'. congruence.
  - intros ix ix' l _ _ H H'. apply in_map_iff in H as (a & <- & Ha), H' as (a' & E & Ha').
    apply in_flat_map in Ha as (iz & _ & Ha), Ha' as (iz' & _ & Ha').
    apply C in Ha, Ha'. rewrite E in Ha'. destruct Ha, Ha'. congruence.
Qed.
