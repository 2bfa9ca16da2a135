(** Superposition and reach of the finite-difference kernels. *)
From Coq Require Import ZArith List Bool QArith Lia.
From Verif Require Import ListAux FdMachine FdKernels FdProofs FdSpec FdReads FdBounds FdRace.
Import ListNotations.
Local Open Scope Z_scope.

(** what a source excites *)
Definition dynamic (f : field) : bool := match f with SRC => true | _ => wavefield f end.
Fixpoint constant (e : expr) : bool :=
  match e with
  | Lit _ => true
  | Rd f _ _ => negb (dynamic f)
  | Add a b | Sub a b | Mul a b | Div a b => constant a && constant b
  | Neg a => constant a
  end.
Fixpoint homog (e : expr) : bool :=
  match e with
  | Lit q => match q with (0 # 1)%Q => true | _ => false end
  | Rd f _ _ => dynamic f
  | Add a b | Sub a b => homog a && homog b
  | Mul a b => (homog a && constant b) || (constant a && homog b)
  | Div a b => homog a && constant b
  | Neg a => homog a
  end.
Definition linear_act (a : action) : Prop := wavefield (fieldof (tgt a)) = true /\ homog (rhs a) = true.

Section Linear.
Context {V : Type} (O : ops V) (zero : V) (L : linear O zero).
Notation eval := (eval O).

(** same medium, wave fields and sources added up *)
Definition sum_of (m1 m2 m3 : mem (V := V)) : Prop :=
  forall x, if dynamic (fieldof x) then m3 x = v_add O (m1 x) (m2 x) else m1 x = m3 x /\ m2 x = m3 x.
Definition scaled (c : V) (m1 m2 : mem (V := V)) : Prop :=
  forall x, if dynamic (fieldof x) then m2 x = v_mul O c (m1 x) else m1 x = m2 x.

Lemma const_sum m1 m2 m3 e : sum_of m1 m2 m3 -> constant e = true -> eval m1 e = eval m3 e /\ eval m2 e = eval m3 e.
Proof.
  intros S. induction e; cbn [constant FdMachine.eval]; intros C; try (apply andb_true_iff in C as [C1 C2]);
    try (destruct (IHe1 C1) as [-> ->], (IHe2 C2) as [-> ->]; now split); [now split| |destruct (IHe C) as [-> ->]; now split].
  specialize (S (f, ix, iz)). cbn [fieldof fst] in S. destruct (dynamic f); [discriminate|exact S].
Qed.
Lemma const_scaled c m1 m2 e : scaled c m1 m2 -> constant e = true -> eval m1 e = eval m2 e.
Proof.
  intros S. induction e; cbn [constant FdMachine.eval]; intros C; try (apply andb_true_iff in C as [C1 C2]);
    try (rewrite (IHe1 C1), (IHe2 C2); reflexivity); [reflexivity| |now rewrite IHe].
  specialize (S (f, ix, iz)). cbn [fieldof fst] in S. destruct (dynamic f); [discriminate|exact S].
Qed.
Lemma homog_sum m1 m2 m3 e : sum_of m1 m2 m3 -> homog e = true -> eval m3 e = v_add O (eval m1 e) (eval m2 e).
Proof.
  intros S. induction e; cbn [homog FdMachine.eval]; intros H.
  - destruct q as [[|p|p] [d|d|]]; try discriminate. rewrite (lin_lit0 O zero L). symmetry. apply (lin_add0 O zero L).
  - specialize (S (f, ix, iz)). cbn [fieldof fst] in S. now rewrite H in S.
  - apply andb_true_iff in H as [H1 H2]. rewrite (IHe1 H1), (IHe2 H2). apply (lin_add O zero L).
  - apply andb_true_iff in H as [H1 H2]. rewrite (IHe1 H1), (IHe2 H2). apply (lin_sub O zero L).
  - apply orb_true_iff in H as [H|H]; apply andb_true_iff in H as [H1 H2].
    + rewrite (IHe1 H1). destruct (const_sum _ _ _ _ S H2) as [-> ->].
      rewrite (lin_comm O zero L), (lin_mul O zero L). f_equal; apply (lin_comm O zero L).
    + rewrite (IHe2 H2). destruct (const_sum _ _ _ _ S H1) as [-> ->]. apply (lin_mul O zero L).
  - apply andb_true_iff in H as [H1 H2]. rewrite (IHe1 H1). destruct (const_sum _ _ _ _ S H2) as [-> ->]. apply (lin_div O zero L).
  - rewrite (IHe H). apply (lin_neg O zero L).
Qed.
Lemma homog_scaled c m1 m2 e : scaled c m1 m2 -> homog e = true -> eval m2 e = v_mul O c (eval m1 e).
Proof.
  intros S. induction e; cbn [homog FdMachine.eval]; intros H.
  - destruct q as [[|p|p] [d|d|]]; try discriminate. rewrite (lin_lit0 O zero L). symmetry. apply (lin_mul0 O zero L).
  - specialize (S (f, ix, iz)). cbn [fieldof fst] in S. now rewrite H in S.
  - apply andb_true_iff in H as [H1 H2]. rewrite (IHe1 H1), (IHe2 H2). symmetry. apply (lin_mul O zero L).
  - apply andb_true_iff in H as [H1 H2]. rewrite (IHe1 H1), (IHe2 H2). symmetry. apply (lin_mul_sub O zero L).
  - apply orb_true_iff in H as [H|H]; apply andb_true_iff in H as [H1 H2].
    + rewrite (IHe1 H1), (const_scaled _ _ _ _ S H2). symmetry. apply (lin_assoc O zero L).
    + rewrite (IHe2 H2), (const_scaled _ _ _ _ S H1). rewrite !(lin_assoc O zero L). f_equal. apply (lin_comm O zero L).
  - apply andb_true_iff in H as [H1 H2]. rewrite (IHe1 H1), (const_scaled _ _ _ _ S H2). symmetry. apply (lin_mul_div O zero L).
  - rewrite (IHe H). symmetry. apply (lin_mul_neg O zero L).
Qed.

Lemma wave_dynamic f : wavefield f = true -> dynamic f = true.
Proof. now destruct f. Qed.
Lemma exec_all_sum l : Forall linear_act l -> forall m1 m2 m3, sum_of m1 m2 m3 -> sum_of (exec_all O l m1) (exec_all O l m2) (exec_all O l m3).
Proof.
  induction 1 as [|a r [W H] F IH]; intros m1 m2 m3 S; [exact S|]. cbn [exec_all fold_left]. apply IH. intros x. unfold exec, upd.
  destruct (loc_eq_dec x (tgt a)) as [->|]; [|apply S]. rewrite (wave_dynamic _ W). now apply homog_sum.
Qed.
Lemma exec_all_scaled c l : Forall linear_act l -> forall m1 m2, scaled c m1 m2 -> scaled c (exec_all O l m1) (exec_all O l m2).
Proof.
  induction 1 as [|a r [W H] F IH]; intros m1 m2 S; [exact S|]. cbn [exec_all fold_left]. apply IH. intros x. unfold exec, upd.
  destruct (loc_eq_dec x (tgt a)) as [->|]; [|apply S]. rewrite (wave_dynamic _ W). now apply homog_scaled.
Qed.

Theorem march_sum prog ampl1 ampl2 ampl3 : all_items linear_act prog -> (forall n k, ampl3 n k = v_add O (ampl1 n k) (ampl2 n k)) ->
  forall n m1 m2 m3, sum_of m1 m2 m3 -> sum_of (march O prog ampl1 n m1) (march O prog ampl2 n m2) (march O prog ampl3 n m3).
Proof.
  intros A E. induction n as [|n IH]; intros m1 m2 m3 S; [exact S|]. cbn [march]. unfold serial. apply exec_all_sum.
  - apply Forall_forall. intros a Ha. now apply (all_items_work _ _ A 1%nat).
  - intros [[f ix] iz]. specialize (IH m1 m2 m3 S (f, ix, iz)). cbn [fieldof fst] in *.
    destruct f; cbn [dynamic wavefield with_sources] in *; auto.
Qed.
Theorem march_scaled prog c ampl1 ampl2 : all_items linear_act prog -> (forall n k, ampl2 n k = v_mul O c (ampl1 n k)) ->
  forall n m1 m2, scaled c m1 m2 -> scaled c (march O prog ampl1 n m1) (march O prog ampl2 n m2).
Proof.
  intros A E. induction n as [|n IH]; intros m1 m2 S; [exact S|]. cbn [march]. unfold serial. apply exec_all_scaled.
  - apply Forall_forall. intros a Ha. now apply (all_items_work _ _ A 1%nat).
  - intros [[f ix] iz]. specialize (IH m1 m2 S (f, ix, iz)). cbn [fieldof fst] in *.
    destruct f; cbn [dynamic wavefield with_sources] in *; auto.
Qed.
End Linear.

(** ** every assignment of the kernels is linear *)
Lemma lin_copy f f' ix iz ix' iz' : wavefield f = true -> wavefield f' = true -> linear_act (mk_action (f, ix, iz) (Rd f' ix' iz')).
Proof. intros W W'. split; [exact W|]. cbn. now apply wave_dynamic. Qed.
Lemma lin_neg_copy f f' ix iz ix' iz' : wavefield f = true -> wavefield f' = true -> linear_act (mk_action (f, ix, iz) (Neg (Rd f' ix' iz'))).
Proof. intros W W'. split; [exact W|]. cbn. now apply wave_dynamic. Qed.
Ltac lin1 := intros; split; reflexivity.
Ltac lin_rigid := apply all_items_for, Forall_flat_map_range; intros; apply Forall_cons; [|apply Forall_map_range; intros]; now apply lin_neg_copy.
Ltac lin_taper := intros; cbv zeta; apply all_items_omp, Forall_loop; intros; (apply Forall_cons; [|apply Forall_nil]).
Section LinearKernels.
Context (g : grid) (b : bnd) (elastic : bool) (surface : Z -> Z) (src_type : Z) (sources : list (Z * Z)) (dxi : Q).
Lemma lin_taper_vx tp ix iz : constant (tp ix iz) = true -> Forall linear_act (taper_vx elastic tp ix iz).
Proof. intros C. apply Forall_cons; [|apply Forall_nil]. split; [reflexivity|]. cbn [rhs homog]. rewrite C. destruct elastic; reflexivity. Qed.
Lemma lin_taper_vz tp ix iz : constant (tp ix iz) = true -> Forall linear_act (taper_vz elastic tp ix iz).
Proof. intros C. apply Forall_cons; [|apply Forall_nil]. split; [reflexivity|]. cbn [rhs homog]. rewrite C. destruct elastic; reflexivity. Qed.
Ltac tapers := cbv zeta; repeat (apply all_items_app || (apply all_items_when; intros)); apply all_items_omp, Forall_loop; intros;
  (apply lin_taper_vx || apply lin_taper_vz); reflexivity.
Lemma lin_P : all_items linear_act (boundariesP g b elastic surface).
Proof.
  unfold boundariesP. apply all_items_app; [|apply all_items_app; [|apply all_items_app; [|apply all_items_app; [|apply all_items_app]]]];
    try (apply all_items_when; intros).
  - apply all_items_for, Forall_flat_map_range. intros. apply Forall_cons; [|apply Forall_cons; [|apply Forall_nil]]; now apply lin_copy.
  - lin_rigid.
  - lin_rigid.
  - lin_rigid.
  - lin_rigid.
  - apply all_items_app; [|apply all_items_app; [|apply all_items_app]]; apply all_items_when; intros;
      [unfold taper_top|unfold taper_bot|unfold taper_lef|unfold taper_rig]; tapers.
Qed.
Lemma lin_V : all_items linear_act (boundariesV g b elastic surface).
Proof.
  unfold boundariesV. apply all_items_app; [|apply all_items_barrier]. apply all_items_when. intros _.
  repeat apply all_items_app; apply all_items_when; intros; apply all_items_for, Forall_map_range; intros; split; reflexivity.
Qed.
Lemma lin_S : all_items linear_act (applySource g b elastic src_type sources dxi).
Proof.
  apply all_items_omp, Forall_forall. intros a Ha. apply in_flat_map in Ha as ([k s] & _ & Ha).
  unfold source_at in Ha. cbv zeta in Ha. destruct (_ || _); [destruct Ha|].
  destruct (src_type =? 6); [|destruct (src_type =? 7); [|destruct (src_type =? 1); [destruct elastic|]]]; cbn [In] in Ha; try contradiction;
    decompose [or] Ha; clear Ha; try contradiction; subst a; split; reflexivity.
Qed.
Lemma lin_main x0 x1 z0 z1 f e : wavefield f = true -> (forall ix iz, homog (e ix iz) = true) ->
  Forall linear_act (loop x0 x1 z0 z1 (fun ix iz => [minus_eq f ix iz (e ix iz)])).
Proof.
  intros W H. apply Forall_loop. intros. apply Forall_cons; [|apply Forall_nil]. split; [exact W|]. cbn [minus_eq rhs homog].
  now rewrite (wave_dynamic _ W), H.
Qed.
Lemma lin_stress cs lam : In cs [coef4; coef6] -> In lam [L2M; LAM] -> Forall linear_act (stress_loop g cs lam).
Proof.
  intros C M. apply Forall_loop. intros. cbn in C, M.
  apply Forall_cons; [|apply Forall_cons; [|apply Forall_nil]]; (split; [reflexivity|]); destruct C as [<-|[<-|[]]], M as [<-|[<-|[]]]; reflexivity.
Qed.
End LinearKernels.
Lemma all_items_For_cons P l r : Forall P l -> all_items P r -> all_items P (For l :: r).
Proof. intros. now constructor. Qed.
Lemma all_items_All_cons P l r : Forall P l -> all_items P r -> all_items P (All l :: r).
Proof. intros. now constructor. Qed.
Lemma all_items_Barrier_cons P r : all_items P r -> all_items P (Barrier :: r).
Proof. intros. now constructor. Qed.
Lemma all_items_nil P : all_items P [].
Proof. constructor. Qed.

Theorem lin_kernel g b surface src_type sources dxi ischeme sh : all_items linear_act (fd_kernel g b surface src_type sources dxi ischeme sh).
Proof.
  pose proof (fun el => lin_P g b el surface) as HP. pose proof (fun el => lin_V g b el surface) as HV.
  pose proof (fun el => lin_S g b el src_type sources dxi) as HS.
  assert (HF : forall el, all_items linear_act (force g b el src_type sources dxi)) by (intros; apply all_items_when; auto).
  assert (HT : forall el, all_items linear_act (stress g b el src_type sources dxi)) by (intros; apply all_items_when; auto).
  unfold fd_kernel.
  assert (D : forall p, In p [acoustic2 g b false surface src_type sources dxi; acousticSH4 g b false surface src_type sources dxi;
     acoustic4 g b false surface src_type sources dxi; acoustic6 g b false surface src_type sources dxi; acoustic16 g b false surface src_type sources dxi;
     elastic4 g b true surface src_type sources dxi; elastic6 g b true surface src_type sources dxi; elastic4dc g b true surface src_type sources dxi; []] ->
     all_items linear_act p).
  { intros p Hp. cbn [In] in Hp. decompose [or] Hp; clear Hp; try contradiction; subst p; try apply all_items_nil;
      unfold acoustic2, acousticSH4, acoustic4, acoustic6, acoustic16, acoustic_n, elastic4, elastic6, elastic4dc;
      repeat (apply HP || apply HF || apply HT || apply HV || apply all_items_app || apply all_items_For_cons || apply all_items_All_cons || apply all_items_Barrier_cons || apply all_items_nil);
      try (apply lin_main; [reflexivity|intros; reflexivity]); apply lin_stress; cbn; tauto. }
  repeat match goal with |- all_items _ (match ?x with _ => _ end) => destruct x end; apply D; cbn [In]; tauto.
Qed.
