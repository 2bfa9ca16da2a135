(** Concrete schedules of a team, for the counterexamples. *)
From Coq Require Import ZArith List Bool QArith Lia Permutation.
From Verif Require Import ListAux FdMachine FdKernels FdProofs FdSpec FdBounds FdRace FdLinear FdLocal.
Import ListNotations.
Local Open Scope Z_scope.

Section Schedules.
Context {V : Type} (O : ops V).
Notation steps := (steps O).
Notation exec_all := (exec_all O).
Lemma load_vals m before a rest after : forall n vs, (length vs + n = length (reads (rhs a)))%nat -> vs = map m (firstn (length vs) (reads (rhs a))) ->
  steps (m, before ++ mk_thread (a :: rest) vs :: after) (m, before ++ mk_thread (a :: rest) (map m (reads (rhs a))) :: after).
Proof.
  induction n as [|n IH]; intros vs E Ev.
  - rewrite Nat.add_0_r in E. rewrite E, firstn_all in Ev. rewrite <- Ev. constructor.
  - destruct (nth_error (reads (rhs a)) (length vs)) as [x|] eqn:Ex; [|apply nth_error_None in Ex; lia].
    eapply steps_next; [apply (step_load O m before a rest vs after x Ex)|]. apply IH; rewrite app_length; cbn [length]; [lia|].
    rewrite Nat.add_1_r, (firstn_snoc _ _ _ Ex), map_app, <- Ev. reflexivity.
Qed.
Lemma exec_one m before a rest after :
  steps (m, before ++ mk_thread (a :: rest) [] :: after) (exec O m a, before ++ mk_thread rest [] :: after).
Proof.
  eapply (steps_trans O); [apply (load_vals m before a rest after (length (reads (rhs a))) []); reflexivity|].
  eapply steps_next; [apply step_store; now rewrite map_length|].
  rewrite <- (app_nil_r (map m _)), (eval_loaded_map O). constructor.
Qed.
Lemma run_one l : forall m before after,
  steps (m, before ++ mk_thread l [] :: after) (exec_all l m, before ++ mk_thread [] [] :: after).
Proof. induction l as [|a r IH]; intros; [constructor|]. eapply (steps_trans O); [apply exec_one|apply IH]. Qed.

(** thread 1 first, then thread 2 *)
Lemma two_in_turn p m l1 l2 : Permutation (l1 ++ l2) (flat_map (work 2) p) -> team_phase O 2 p m (exec_all (l1 ++ l2) m).
Proof.
  intros P. exists [l1; l2]. eexists. conjs; [reflexivity|cbn [concat]; now rewrite app_nil_r| |].
  - cbn [map]. eapply (steps_trans O); [apply (run_one l1 m [] [mk_thread l2 []])|].
    rewrite (exec_all_app O). apply (run_one l2 _ [mk_thread [] []] []).
  - repeat constructor.
Qed.
Lemma run_prefix l : forall m before r after,
  steps (m, before ++ mk_thread (l ++ r) [] :: after) (exec_all l m, before ++ mk_thread r [] :: after).
Proof. induction l as [|a l IH]; intros; [constructor|]. eapply (steps_trans O); [apply exec_one|apply IH]. Qed.
(** thread 1 does [l1], loads the operands of [a], then thread 2 runs, then thread 1 goes on *)
Definition interrupted l1 a r1 l2 m : mem :=
  exec_all r1 (upd (exec_all l2 (exec_all l1 m)) (tgt a) (eval O (exec_all l1 m) (rhs a))).
Lemma lost_update p m l1 a r1 l2 : Permutation ((l1 ++ a :: r1) ++ l2) (flat_map (work 2) p) -> team_phase O 2 p m (interrupted l1 a r1 l2 m).
Proof.
  intros P. exists [l1 ++ a :: r1; l2]. eexists. conjs; [reflexivity|cbn [concat]; now rewrite app_nil_r| |].
  - cbn [map]. eapply (steps_trans O); [apply (run_prefix l1 m [] (a :: r1) [mk_thread l2 []])|].
    eapply (steps_trans O); [apply (load_vals _ [] a r1 [mk_thread l2 []] (length (reads (rhs a))) []); reflexivity|].
    eapply (steps_trans O); [apply (run_one l2 _ [mk_thread (a :: r1) (map (exec_all l1 m) (reads (rhs a)))] [])|].
    eapply steps_next; [apply (step_store O _ [] a r1 _ [mk_thread [] []]); now rewrite map_length|].
    rewrite <- (app_nil_r (map _ _)), (eval_loaded_map O). apply (run_one r1 _ [] [mk_thread [] []]).
  - repeat constructor.
Qed.
End Schedules.

Lemma serial_ext {V} (O : ops V) prog m m' : (forall k, m k = m' k) -> forall k, serial O prog m k = serial O prog m' k.
Proof.
  intros E. unfold serial. generalize (flat_map (work 1) prog) as l. intros l. revert m m' E. induction l as [|a r IH]; intros m m' E k; [apply E|].
  cbn [exec_all fold_left]. apply IH. intros x. unfold exec, upd. destruct (loc_eq_dec x (tgt a)); [apply (eval_ext O); auto|apply E].
Qed.
Lemma with_sources_ext {V} (m m' : mem (V := V)) a : (forall k, m k = m' k) -> forall k, with_sources m a k = with_sources m' a k.
Proof. intros E [[f i] j]. unfold with_sources. destruct f; auto. Qed.

Lemma no_all_app a b : Forall no_all a -> Forall no_all b -> Forall no_all (a ++ b).
Proof. intros. apply Forall_app; now split. Qed.
Lemma no_all_when c l : Forall no_all l -> Forall no_all (when c l).
Proof. intros H. destruct c; [exact H|apply Forall_nil]. Qed.
Ltac no_all_tac := repeat (first [apply no_all_app | apply no_all_when | apply Forall_cons; [exact I|] | apply Forall_nil]).
Lemma no_all_P g b el surface : Forall no_all (boundariesP g b el surface).
Proof. unfold boundariesP, taper_top, taper_bot, taper_lef, taper_rig, omp_for. cbv zeta. no_all_tac. Qed.
Lemma no_all_V g b el surface : Forall no_all (boundariesV g b el surface).
Proof. unfold boundariesV. no_all_tac. Qed.
Lemma no_all_S g b el src_type sources dxi : Forall no_all (applySource g b el src_type sources dxi).
Proof. unfold applySource, omp_for. no_all_tac. Qed.

Lemma race_free_fd g b surface src_type sources dxi ischeme sh T :
  (ischeme = 1 /\ (iorder g = 4 \/ iorder g = 6 \/ iorder g = 16) /\ (top b = 4 \/ top b = 1)) \/ (ischeme = 3 /\ iorder g = 6 /\ top b = 4) ->
  bot b = 4 -> lef b = 4 -> rig b = 4 -> NoDup sources ->
  let prog := fd_kernel g b surface src_type sources dxi ischeme sh in race_free T prog /\ Forall no_all prog.
Proof.
  intros H Hb Hl Hr N. cbv zeta. split.
  - destruct H as [(-> & Ho & Ht)|(-> & Ho & Ht)]; unfold fd_kernel.
    + destruct Ho as [Ho|[Ho|Ho]]; rewrite Ho; cbv iota; [destruct sh|..].
      * apply (race_free_generic g b surface src_type sources dxi Hb Hl Hr N T 2); auto; try lia; intros; [apply cl_vx_sh|apply cl_vz_sh|apply cl_p_sh]; lia.
      * now apply race_free_acoustic4.
      * apply (race_free_generic g b surface src_type sources dxi Hb Hl Hr N T 3); auto; try lia; intros; [apply cl_vx_ac|apply cl_vz_ac|apply cl_p_ac]; try exact FdReads.lit_coef6; cbn; lia.
      * apply (race_free_generic g b surface src_type sources dxi Hb Hl Hr N T 8); auto; try lia; intros; [apply cl_vx_ac|apply cl_vz_ac|apply cl_p_ac]; try exact FdReads.lit_coef16; cbn; lia.
    + rewrite Ho. now apply race_free_elastic6.
  - assert (D : forall el, Forall no_all (boundariesP g b el surface) /\ Forall no_all (boundariesV g b el surface) /\
       Forall no_all (force g b el src_type sources dxi) /\ Forall no_all (stress g b el src_type sources dxi)).
    { intros el. conjs; [apply no_all_P|apply no_all_V|apply no_all_when, no_all_S|apply no_all_when, no_all_S]. }
    destruct (D false) as (P & Vv & F & S), (D true) as (P' & Vv' & F' & S'). clear D.
    unfold fd_kernel, acousticSH4, acoustic4, acoustic6, acoustic16, acoustic_n, elastic6.
    destruct H as [(-> & Ho & Ht)|(-> & Ho & Ht)]; [destruct Ho as [Ho|[Ho|Ho]]|]; rewrite Ho; cbv iota; try destruct sh;
      repeat (first [assumption | apply no_all_app | apply Forall_cons; [exact I|] | apply Forall_nil]).
Qed.

(** search for an access *)
Definition touches (x : loc) (a : action) : bool := existsb (fun y => if loc_eq_dec x y then true else false) (tgt a :: reads (rhs a)).
Lemma accesses_found threads prog x : existsb (touches x) (flat_map (work threads) prog) = true -> accesses prog x.
Proof.
  intros H. apply existsb_exists in H as (a & Ha & H). exists threads, a. split; [exact Ha|].
  apply existsb_exists in H as (y & Hy & H). destruct (loc_eq_dec x y) as [->|]; [|discriminate]. destruct Hy as [<-|Hy]; auto.
Qed.

(** two threads one after the other in every phase, the first getting all loop iterations *)
Definition everyone (i : item) : list action := match i with All l => l | _ => [] end.
Lemma split_work p : Permutation (flat_map (work 1) p ++ flat_map everyone p) (flat_map (work 2) p).
Proof.
  induction p as [|i p IH]; [apply Permutation_refl|]. cbn [flat_map].
  assert (E : Permutation (work 1 i ++ everyone i) (work 2 i)).
  { destruct i; cbn; rewrite ?app_nil_r; apply Permutation_refl. }
  eapply Permutation_trans; [|apply Permutation_app; [exact E|exact IH]].
  rewrite <- !app_assoc. apply Permutation_app_head. rewrite !app_assoc. apply Permutation_app_tail, Permutation_app_comm.
Qed.
Definition in_turn {V} (O : ops V) (ps : list (list item)) (m : mem) : mem :=
  fold_left (fun m p => exec_all O (flat_map (work 1) p ++ flat_map everyone p) m) ps m.
Lemma in_turn_run {V} (O : ops V) ps : forall m, team_run O 2 ps m (in_turn O ps m).
Proof. induction ps as [|p ps IH]; intros m; [constructor|]. econstructor; [apply two_in_turn, split_work|apply IH]. Qed.
Lemma team_run_app {V} (O : ops V) T a b : forall m m1 m2, team_run O T a m m1 -> team_run O T b m1 m2 -> team_run O T (a ++ b) m m2.
Proof. induction a; intros m m1 m2 H1 H2; inversion H1; subst; [exact H2|]. econstructor; eauto. Qed.
