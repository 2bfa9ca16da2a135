(** The reach of the finite-difference kernels. *)
From Coq Require Import ZArith List Bool QArith Lia.
From Verif Require Import ListAux FdMachine FdKernels FdProofs FdSpec FdReads FdBounds FdRace FdLinear.
Import ListNotations.
Local Open Scope Z_scope.

Section Local.
Context {V : Type} (O : ops V) (x z : Z) (o : Z * Z) (sources : list (Z * Z)) (R : Z).
(** velocities agree within rv cells, stresses within rs, the medium within R, and so do the sources *)
Definition ag (rv rs : Z) (m1 m2 : mem (V := V)) : Prop :=
  (forall l, velocity (fieldof l) = true -> near rv x z l -> m1 l = m2 l) /\
  (forall l, stress_field (fieldof l) = true -> near rs x z l -> m1 l = m2 l) /\
  (forall l, medium (fieldof l) = true -> near R x z l -> m1 l = m2 l) /\
  (forall l, tap (fieldof l) = true -> m1 l = m2 l) /\
  (forall k s, nth_error sources k = Some s -> near R x z (SRC, fst s + fst o, snd s + snd o) -> m1 (SRC, Z.of_nat k, 0) = m2 (SRC, Z.of_nat k, 0)).

Lemma near_mono r r' l : r <= r' -> near r x z l -> near r' x z l.
Proof. unfold near. lia. Qed.
Lemma ag_mono rv rs rv' rs' m1 m2 : rv' <= rv -> rs' <= rs -> ag rv rs m1 m2 -> ag rv' rs' m1 m2.
Proof.
  intros Hv Hs (A & B & C). split; [|split; [|exact C]]; intros l Hl N; [apply A|apply B]; auto; eapply near_mono; eauto.
Qed.

(** the assignment preserves the agreement *)
Definition keeps (rv rs : Z) (a : action) : Prop := forall m1 m2, ag rv rs m1 m2 -> ag rv rs (exec O m1 a) (exec O m2 a).
Lemma keeps_all rv rs l : Forall (keeps rv rs) l -> forall m1 m2, ag rv rs m1 m2 -> ag rv rs (exec_all O l m1) (exec_all O l m2).
Proof. induction 1 as [|a r K F IH]; intros m1 m2 A; [exact A|]. cbn [exec_all fold_left]. apply IH, K, A. Qed.

Lemma keeps_by rv rs a : wavefield (fieldof (tgt a)) = true ->
  (forall m1 m2, ag rv rs m1 m2 -> near (if velocity (fieldof (tgt a)) then rv else rs) x z (tgt a) -> forall l, In l (reads (rhs a)) -> m1 l = m2 l) -> keeps rv rs a.
Proof.
  intros W H m1 m2 A. specialize (H m1 m2 A). pose proof A as (A1 & A2 & A3 & A4 & A5). unfold ag, exec, upd. conjs.
  - intros l Hl N. destruct (loc_eq_dec l (tgt a)) as [->|]; [|auto]. apply eval_ext, H. now rewrite Hl.
  - intros l Hl N. destruct (loc_eq_dec l (tgt a)) as [->|]; [|auto]. apply eval_ext, H.
    destruct (fieldof (tgt a)); try discriminate; exact N.
  - intros l Hl N. destruct (loc_eq_dec l (tgt a)) as [->|]; [|auto]. destruct (fieldof (tgt a)); discriminate.
  - intros l Hl. destruct (loc_eq_dec l (tgt a)) as [->|]; [|auto]. destruct (fieldof (tgt a)); discriminate.
  - intros k s Hs N. destruct (loc_eq_dec _ (tgt a)) as [E|]; [rewrite <- E in W; discriminate|eauto].
Qed.

Lemma keeps_vel h rv rs a : rv + h <= rs -> rv <= R -> vel_act h a -> keeps rv rs a.
Proof.
  intros Hr HR [W Rd]. apply keeps_by; [destruct (fieldof (tgt a)); try discriminate; reflexivity|].
  rewrite W. intros m1 m2 (A1 & A2 & A3 & A4 & A5) N l Hl. destruct (Rd l Hl) as [->|[[M C]|[T|[S C]]]].
  - now apply A1.
  - apply A3; [exact M|]. unfold at_cell, near in *. lia.
  - now apply A4.
  - apply A2; [exact S|]. unfold near_loc, near in *. lia.
Qed.
Lemma keeps_str h rv rs a : rs + h <= rv -> rs <= R -> str_act h a -> keeps rv rs a.
Proof.
  intros Hr HR [W Rd]. apply keeps_by; [destruct (fieldof (tgt a)); try discriminate; reflexivity|].
  replace (velocity (fieldof (tgt a))) with false by (destruct (fieldof (tgt a)); try discriminate; reflexivity).
  intros m1 m2 (A1 & A2 & A3 & A4 & A5) N l Hl. destruct (Rd l Hl) as [->|[[M C]|[S C]]].
  - now apply A2.
  - apply A3; [exact M|]. unfold at_cell, near in *. lia.
  - apply A1; [exact S|]. unfold near_loc, near in *. lia.
Qed.
Lemma keeps_src rv rs a : rv <= R -> rs <= R -> src_act o sources a -> keeps rv rs a.
Proof.
  intros Hv Hs (W & k & s & Hk & X & Zs & Rd). apply keeps_by; [exact W|].
  intros m1 m2 (A1 & A2 & A3 & A4 & A5) N l Hl. destruct (Rd l Hl) as [->|[[M C]| ->]].
  - destruct (velocity (fieldof (tgt a))) eqn:E; [now apply A1|]. apply A2; [|exact N].
    destruct (fieldof (tgt a)); try discriminate; reflexivity.
  - apply A3; [exact M|]. unfold at_cell, near in *. destruct (velocity (fieldof (tgt a))); lia.
  - apply (A5 k s Hk). unfold near in *. cbn [fst snd] in *. rewrite X, Zs in N. destruct (velocity (fieldof (tgt a))); lia.
Qed.
Lemma ag_free g surface rv rs m1 m2 : ag rv rs m1 m2 ->
  ag (rv - 3) rs (exec_all O (free_top g surface) m1) (exec_all O (free_top g surface) m2).
Proof.
  intros A.
  assert (C : conflict_free (free_top g surface)).
  { rewrite <- (app_nil_r (free_top g surface)). apply (free_top_conflict_free g surface 2); [split; constructor|constructor]. }
  assert (F := free_top_acts g surface). rewrite Forall_forall in F.
  assert (Q : forall l, fieldof l <> VZ -> exec_all O (free_top g surface) m1 l = m1 l /\ exec_all O (free_top g surface) m2 l = m2 l).
  { intros l Hl. rewrite !exec_all_sim by exact C. split; apply sim_out; intros I; apply in_map_iff in I as (a & <- & Ha); destruct (F a Ha) as [E _]; contradiction. }
  destruct A as (A1 & A2 & A3 & A4 & A5). unfold ag. conjs.
  - intros l Hl N. rewrite !exec_all_sim by exact C.
    destruct (in_dec loc_eq_dec l (map tgt (free_top g surface))) as [I|I].
    + apply in_map_iff in I as (a & <- & Ha). rewrite !(sim_in O _ _ a) by (auto; apply C). apply eval_ext. intros y Hy.
      destruct (F a Ha) as [_ Rd]. destruct (Rd y Hy) as [E Ny]. apply A1; [now rewrite E|]. unfold near, near_loc in *. lia.
    + rewrite !sim_out by exact I. apply A1; [exact Hl|]. eapply near_mono; [|exact N]. lia.
  - intros l Hl N. destruct (Q l) as [-> ->]; [intros E; rewrite E in Hl; discriminate|auto].
  - intros l Hl N. destruct (Q l) as [-> ->]; [intros E; rewrite E in Hl; discriminate|auto].
  - intros l Hl. destruct (Q l) as [-> ->]; [intros E; rewrite E in Hl; discriminate|auto].
  - intros k s Hs N. destruct (Q (SRC, Z.of_nat k, 0)) as [-> ->]; [discriminate|eauto].
Qed.

(** programs *)
Definition run (prog : list item) (m : mem) : mem := exec_all O (flat_map (work 1) prog) m.
Lemma run_app a b m : run (a ++ b) m = run b (run a m).
Proof. unfold run. now rewrite flat_map_app, exec_all_app. Qed.
Lemma run_keeps rv rs P prog m1 m2 : all_items P prog -> (forall a, P a -> keeps rv rs a) -> ag rv rs m1 m2 -> ag rv rs (run prog m1) (run prog m2).
Proof.
  intros A K. unfold run. apply keeps_all. apply Forall_forall. intros a Ha. apply K. now apply (all_items_work _ _ A 1%nat).
Qed.
End Local.

Lemma vel_prog_items h l : vel_prog h l -> all_items (vel_act h) l.
Proof. induction 1 as [|l r [F N] H IH]; [constructor|]. apply all_items_app; [now apply all_items_omp|exact IH]. Qed.

Section Step.
Context {V : Type} (O : ops V) (x z : Z).
Context (g : grid) (b : bnd) (surface : Z -> Z) (src_type : Z) (sources : list (Z * Z)) (dxi : Q).
Context (nr : top b <> 3 /\ bot b <> 3 /\ lef b <> 3 /\ rig b <> 3).
Let o := src_offset g b src_type.
Let mirror := if top b =? 1 then 3 else 0.
Notation ag := (ag x z o sources).

Lemma ag_P elastic h R rv rs m1 m2 : 2 <= h -> rv + h <= rs -> rv <= R -> ag R rv rs m1 m2 ->
  ag R (rv - mirror) rs (run O (boundariesP g b elastic surface) m1) (run O (boundariesP g b elastic surface) m2).
Proof.
  intros Hh Hr HR A. unfold boundariesP. destruct nr as (N1 & N2 & N3 & N4). apply Z.eqb_neq in N1, N2, N3, N4.
  rewrite N1, N2, N3, N4. cbn [when app]. rewrite (run_app O _ _ m1), (run_app O _ _ m2).
  assert (A' : ag R (rv - mirror) rs (run O (when (negb elastic && (top b =? 1)) [For (free_top g surface)]) m1)
                                   (run O (when (negb elastic && (top b =? 1)) [For (free_top g surface)]) m2)).
  { unfold mirror. destruct (top b =? 1), elastic; cbn [negb andb when].
    - eapply ag_mono; [| |exact A]; lia.
    - unfold run. cbn [flat_map work]. rewrite app_nil_r. now apply ag_free.
    - eapply ag_mono; [| |exact A]; lia.
    - eapply ag_mono; [| |exact A]; lia. }
  eapply (run_keeps O x z o sources R _ _ (vel_act h)); [|intros a Ha; eapply keeps_vel; [| |exact Ha]|exact A'];
    [|unfold mirror; destruct (top b =? 1); lia..].
  apply vel_prog_items. apply vel_prog_app; [|apply vel_prog_app; [|apply vel_prog_app]]; apply vel_prog_when; intros _;
    [now apply vel_taper_top|now apply vel_taper_bot|now apply vel_taper_lef|now apply vel_taper_rig].
Qed.
Lemma ag_S elastic R rv rs m1 m2 c : rv <= R -> rs <= R -> ag R rv rs m1 m2 ->
  ag R rv rs (run O (when c (applySource g b elastic src_type sources dxi)) m1) (run O (when c (applySource g b elastic src_type sources dxi)) m2).
Proof.
  intros Hv Hs A. eapply run_keeps; [|intros a Ha; eapply keeps_src; [| |exact Ha]|exact A]; auto.
  apply all_items_when. intros _. apply all_items_omp, source_acts.
Qed.
Lemma ag_V elastic R rv rs m1 m2 : ag R rv rs m1 m2 ->
  ag R rv rs (run O (boundariesV g b elastic surface) m1) (run O (boundariesV g b elastic surface) m2).
Proof.
  intros A. eapply (run_keeps _ _ _ _ _ _ _ _ (fun a => fieldof (tgt a) = TZZ /\ reads (rhs a) = [])); [| |exact A].
  - unfold boundariesV. apply all_items_app; [|apply all_items_barrier]. apply all_items_when. intros _.
    repeat apply all_items_app; apply all_items_when; intros; apply all_items_for, Forall_map_range; intros; split; reflexivity.
  - intros a [Ht Hr]. apply keeps_by; [now rewrite Ht|]. intros m m' _ _ l Hl. rewrite Hr in Hl. destruct Hl.
Qed.
Lemma ag_vel h R rv rs prog m1 m2 : rv + h <= rs -> rv <= R -> all_items (vel_act h) prog -> ag R rv rs m1 m2 -> ag R rv rs (run O prog m1) (run O prog m2).
Proof. intros Hr HR P A. eapply run_keeps; [exact P|intros a Ha; eapply keeps_vel; eauto|exact A]. Qed.
Lemma ag_str h R rv rs prog m1 m2 : rs + h <= rv -> rs <= R -> all_items (str_act h) prog -> ag R rv rs m1 m2 -> ag R rv rs (run O prog m1) (run O prog m2).
Proof. intros Hr HR P A. eapply run_keeps; [exact P|intros a Ha; eapply keeps_str; eauto|exact A]. Qed.

(** a kernel: velocities, boundaries and force sources, stresses, stress sources, free surface *)
Definition kernel_like (h : Z) (prog : list item) : Prop := exists elastic vs ss, all_items (vel_act h) vs /\ all_items (str_act h) ss /\
  (prog = vs ++ boundariesP g b elastic surface ++ force g b elastic src_type sources dxi ++ ss ++ stress g b elastic src_type sources dxi ++ boundariesV g b elastic surface \/
   prog = vs ++ force g b elastic src_type sources dxi ++ boundariesP g b elastic surface ++ ss ++ stress g b elastic src_type sources dxi ++ boundariesV g b elastic surface).
Lemma ag_kernel h R r prog m1 m2 : 2 <= h -> r + 2 * h + mirror <= R -> kernel_like h prog -> ag R (r + 2 * h + mirror) (r + 2 * h + mirror) m1 m2 ->
  ag R r r (run O prog m1) (run O prog m2).
Proof.
  intros Hh HR (elastic & vs & ss & Hv & Hs & E) A.
  assert (M : 0 <= mirror) by (unfold mirror; destruct (top b =? 1); lia).
  assert (A1 : ag R (r + h + mirror) (r + 2 * h + mirror) (run O vs m1) (run O vs m2)).
  { apply (ag_vel h); [lia|lia|exact Hv|]. eapply ag_mono; [| |exact A]; lia. }
  assert (Fin : forall n1 n2, ag R (r + h) (r + 2 * h + mirror) n1 n2 ->
     ag R r r (run O (ss ++ stress g b elastic src_type sources dxi ++ boundariesV g b elastic surface) n1)
              (run O (ss ++ stress g b elastic src_type sources dxi ++ boundariesV g b elastic surface) n2)).
  { intros n1 n2 B. rewrite !run_app. eapply (ag_mono _ _ _ _ _ (r + h) r); [lia|lia|]. apply ag_V. unfold stress. apply ag_S; [lia|lia|].
    apply (ag_str h); [lia|lia|exact Hs|]. eapply ag_mono; [| |exact B]; lia. }
  destruct E as [-> | ->]; rewrite (run_app _ vs), (run_app _ vs).
  - rewrite (run_app _ (boundariesP _ _ _ _)), (run_app _ (boundariesP _ _ _ _)), (run_app _ (force _ _ _ _ _ _)), (run_app _ (force _ _ _ _ _ _)).
    apply Fin. unfold force. apply ag_S; [lia|lia|]. replace (r + h) with (r + h + mirror - mirror) by lia. apply (ag_P _ h); [lia|lia|lia|exact A1].
  - rewrite (run_app _ (force _ _ _ _ _ _)), (run_app _ (force _ _ _ _ _ _)), (run_app _ (boundariesP _ _ _ _)), (run_app _ (boundariesP _ _ _ _)).
    apply Fin. replace (r + h) with (r + h + mirror - mirror) by lia. apply (ag_P _ h); [lia|lia|lia|]. unfold force. apply ag_S; [lia|lia|exact A1].
Qed.
End Step.

Lemma all_items_impl (P Q : action -> Prop) l : (forall a, P a -> Q a) -> all_items P l -> all_items Q l.
Proof.
  intros H. induction 1 as [|i r Hi Hr IH]; constructor; auto. destruct i; auto; (eapply Forall_impl; [|exact Hi]); auto.
Qed.

Lemma fd_kernel_cases g b surface src_type sources dxi ischeme sh (k := fd_kernel g b surface src_type sources dxi ischeme sh) :
  k = [] \/ (ischeme = 1 /\ iorder g = 2 /\ k = acoustic2 g b false surface src_type sources dxi) \/
  (ischeme = 1 /\ iorder g = 4 /\ sh = true /\ k = acousticSH4 g b false surface src_type sources dxi) \/
  (ischeme = 1 /\ iorder g = 4 /\ sh = false /\ k = acoustic4 g b false surface src_type sources dxi) \/
  (ischeme = 1 /\ iorder g = 6 /\ k = acoustic6 g b false surface src_type sources dxi) \/
  (ischeme = 1 /\ iorder g = 16 /\ k = acoustic16 g b false surface src_type sources dxi) \/
  (ischeme = 3 /\ iorder g = 4 /\ k = elastic4 g b true surface src_type sources dxi) \/
  (ischeme = 3 /\ iorder g = 6 /\ k = elastic6 g b true surface src_type sources dxi) \/
  (ischeme = 5 /\ k = elastic4dc g b true surface src_type sources dxi).
Proof.
  subst k. unfold fd_kernel. generalize (iorder g). intros io.
  destruct sh; repeat match goal with |- context [match ?i with _ => _ end] => is_var i; destruct i end; auto 10 || tauto.
Qed.

Lemma items_vel g h ex ez : (forall ix iz, vel_act h (minus_eq VX ix iz (ex ix iz))) -> (forall ix iz, vel_act h (minus_eq VZ ix iz (ez ix iz))) ->
  all_items (vel_act h) [For (vx_loop g ex); For (vz_loop g ez); Barrier].
Proof.
  intros X Z. apply all_items_For_cons; [|apply all_items_For_cons; [|apply all_items_barrier]];
    (apply Forall_loop; intros; (apply Forall_cons; [|apply Forall_nil])); auto.
Qed.
Lemma items_p g h ep : (forall ix iz, str_act h (minus_eq TZZ ix iz (ep ix iz))) -> all_items (str_act h) [For (p_loop g ep); Barrier].
Proof. intros X. apply all_items_For_cons; [|apply all_items_barrier]. apply Forall_loop; intros; (apply Forall_cons; [|apply Forall_nil]); auto. Qed.
Ltac lits := first [exact lit_coef4 | exact lit_coef4opt | exact lit_coef6 | exact lit_coef16].

Lemma kernel_like_fd g b surface src_type sources dxi ischeme sh (k := fd_kernel g b surface src_type sources dxi ischeme sh) :
  k = [] \/ kernel_like g b surface src_type sources dxi (Z.max 2 (iorder g / 2)) k.
Proof.
  destruct (fd_kernel_cases g b surface src_type sources dxi ischeme sh) as [E|[(_ & Eo & Ek)|[(_ & Eo & _ & Ek)|[(_ & Eo & _ & Ek)|[(_ & Eo & Ek)|[(_ & Eo & Ek)|[(_ & Eo & Ek)|[(_ & Eo & Ek)|(_ & Ek)]]]]]]]]; [now left|right; fold k in Ek..].
  - rewrite Ek, Eo. change (Z.max 2 (2 / 2)) with 2. exists false. do 2 eexists. conjs; [| |right; unfold acoustic2; reflexivity].
    + apply all_items_All_cons; [|apply all_items_All_cons; [|apply all_items_nil]]; apply Forall_loop; intros; (apply Forall_cons; [|apply Forall_nil]);
        (apply vel_minus; [reflexivity|]); intros l; cbn [reads app In]; intros Hl; decompose [or] Hl; clear Hl; try contradiction; subst l;
        first [left; split; [reflexivity|now split] | right; right; split; [reflexivity|split; cbn [fst snd]; lia]].
    + apply all_items_All_cons; [|apply all_items_nil]; apply Forall_loop; intros; (apply Forall_cons; [|apply Forall_nil]).
      apply str_minus; [reflexivity|]; intros l; cbn [reads app In]; intros Hl; decompose [or] Hl; clear Hl; try contradiction; subst l;
        first [left; split; [reflexivity|now split] | right; split; [reflexivity|split; cbn [fst snd]; lia]].
  - rewrite Ek, Eo. change (Z.max 2 (4 / 2)) with 2. exists false. do 2 eexists. conjs; [| |right; unfold acousticSH4; reflexivity].
    + apply items_vel; intros; [apply cl_vx_sh|apply cl_vz_sh]; lia.
    + apply items_p; intros; apply cl_p_sh; lia.
  - rewrite Ek, Eo. change (Z.max 2 (4 / 2)) with 2. exists false. do 2 eexists. conjs; [| |left; unfold acoustic4; reflexivity].
    + apply items_vel; intros; [apply cl_vx_ac|apply cl_vz_ac]; (lits || (cbn; lia)).
    + apply items_p; intros; apply cl_p_ac; (lits || (cbn; lia)).
  - rewrite Ek, Eo. change (Z.max 2 (6 / 2)) with 3. exists false. do 2 eexists. conjs; [| |right; unfold acoustic6, acoustic_n; reflexivity].
    + apply items_vel; intros; [apply cl_vx_ac|apply cl_vz_ac]; (lits || (cbn; lia)).
    + apply items_p; intros; apply cl_p_ac; (lits || (cbn; lia)).
  - rewrite Ek, Eo. change (Z.max 2 (16 / 2)) with 8. exists false. do 2 eexists. conjs; [| |right; unfold acoustic16, acoustic_n; reflexivity].
    + apply items_vel; intros; [apply cl_vx_ac|apply cl_vz_ac]; (lits || (cbn; lia)).
    + apply items_p; intros; apply cl_p_ac; (lits || (cbn; lia)).
  - rewrite Ek, Eo. change (Z.max 2 (4 / 2)) with 2. exists true. do 2 eexists. conjs; [| |right; unfold elastic4; reflexivity].
    + apply items_vel; intros; [apply cl_vx_el|apply cl_vz_el]; (lits || (cbn; lia)).
    + apply all_items_For_cons; [apply stress_loop_acts; (lits || reflexivity || (cbn; lia))|].
      apply all_items_For_cons; [|apply all_items_barrier]. apply Forall_loop; intros; (apply Forall_cons; [|apply Forall_nil]). apply cl_txz; (lits || (cbn; lia)).
  - rewrite Ek, Eo. change (Z.max 2 (6 / 2)) with 3. exists true. do 2 eexists. conjs; [| |right; unfold elastic6; reflexivity].
    + apply items_vel; intros; [apply cl_vx_el|apply cl_vz_el]; (lits || (cbn; lia)).
    + apply all_items_For_cons; [apply stress_loop_acts; (lits || reflexivity || (cbn; lia))|].
      apply all_items_For_cons; [|apply all_items_barrier]. apply Forall_loop; intros; (apply Forall_cons; [|apply Forall_nil]). apply cl_txz; (lits || (cbn; lia)).
  - rewrite Ek. exists true. do 2 eexists. conjs; [| |right; unfold elastic4dc; reflexivity].
    + apply items_vel; intros; [apply cl_vx_el|apply cl_vz_el]; (lits || (cbn [length coef4]; lia)).
    + apply all_items_For_cons; [apply stress_loop_acts; (lits || reflexivity || (cbn [length coef4]; lia))|apply all_items_nil].
Qed.

Lemma march_local {V} (O : ops V) x z g b surface src_type sources dxi ischeme sh R :
  top b <> 3 /\ bot b <> 3 /\ lef b <> 3 /\ rig b <> 3 ->
  forall m1 m2 ampl1 ampl2, agree_near R x z m1 m2 ->
  (forall k s i, nth_error sources k = Some s -> near R x z (SRC, fst s + fst (src_offset g b src_type), snd s + snd (src_offset g b src_type)) ->
     ampl1 i (Z.of_nat k) = ampl2 i (Z.of_nat k)) ->
  forall n, let r := R - Z.of_nat n * reach g b in let prog := fd_kernel g b surface src_type sources dxi ischeme sh in
  (forall l, wavefield (fieldof l) = true -> near r x z l -> march O prog ampl1 n m1 l = march O prog ampl2 n m2 l) /\
  (forall l, medium (fieldof l) = true -> near R x z l -> march O prog ampl1 n m1 l = march O prog ampl2 n m2 l) /\
  (forall l, tap (fieldof l) = true -> march O prog ampl1 n m1 l = march O prog ampl2 n m2 l).
Proof.
  intros nr m1 m2 ampl1 ampl2 A S n. set (prog := fd_kernel g b surface src_type sources dxi ischeme sh). cbv zeta.
  induction n as [|n (I1 & I2 & I3)].
  - cbn [march]. rewrite Z.sub_0_r. conjs; intros l Hl; intros; specialize (A l); fold (fieldof l) in A; destruct (fieldof l); try discriminate; auto.
  - cbn [march]. fold (run O prog). change (serial O prog) with (run O prog).
    assert (Hreach : reach g b = 2 * Z.max 2 (iorder g / 2) + (if top b =? 1 then 3 else 0)) by reflexivity.
    assert (B : ag x z (src_offset g b src_type) sources R (R - Z.of_nat n * reach g b) (R - Z.of_nat n * reach g b)
       (with_sources (march O prog ampl1 n m1) (ampl1 n)) (with_sources (march O prog ampl2 n m2) (ampl2 n))).
    { unfold ag, with_sources. conjs.
      - intros [[f i] j] Hl N. destruct f; try discriminate; now apply I1.
      - intros [[f i] j] Hl N. destruct f; try discriminate; now apply I1.
      - intros [[f i] j] Hl N. destruct f; try discriminate; now apply I2.
      - intros [[f i] j] Hl. destruct f; try discriminate; now apply I3.
      - intros k s Hs N. eapply S; eauto. }
    assert (C : ag x z (src_offset g b src_type) sources R (R - Z.of_nat (Datatypes.S n) * reach g b) (R - Z.of_nat (Datatypes.S n) * reach g b)
       (run O prog (with_sources (march O prog ampl1 n m1) (ampl1 n))) (run O prog (with_sources (march O prog ampl2 n m2) (ampl2 n)))).
    { assert (P : 0 <= reach g b) by (rewrite Hreach; destruct (top b =? 1); lia).
      destruct (kernel_like_fd g b surface src_type sources dxi ischeme sh) as [E|K]; fold prog in E || fold prog in K.
      - rewrite E in B |- *. eapply ag_mono; [| |exact B]; lia.
      - eapply (ag_kernel O x z g b surface src_type sources dxi nr (Z.max 2 (iorder g / 2))); [lia| |exact K|].
        + rewrite <- Z.add_assoc, <- Hreach. nia.
        + rewrite <- Z.add_assoc, <- Hreach. replace (R - Z.of_nat (Datatypes.S n) * reach g b + reach g b) with (R - Z.of_nat n * reach g b) by lia. exact B. }
    destruct C as (C1 & C2 & C3 & C4 & _). conjs; auto.
    intros l Hl N. destruct (fieldof l) eqn:E; try discriminate; (apply C1; [now rewrite E|exact N]) || (apply C2; [now rewrite E|exact N]).
Qed.
