(** The finite-difference kernels with tapered sides have no conflicting accesses between barriers. *)
From Coq Require Import ZArith List Bool QArith Permutation Lia.
From Verif Require Import ListAux FdMachine FdKernels FdProofs FdSpec FdReads FdBounds.
Import ListNotations.
Local Open Scope Z_scope.

(** velocities from stresses, stresses from velocities: position-free description *)
Definition tap (f : field) : bool := match f with TAPX | TAPZ | TAPXZ => true | _ => false end.
Definition stress_field (f : field) : bool := match f with TZZ | TXX | TXZ => true | _ => false end.
Definition at_cell (a x : loc) : Prop := snd (fst x) = snd (fst a) /\ snd x = snd a.
Definition near_loc (r : Z) (a x : loc) : Prop := Z.abs (snd (fst x) - snd (fst a)) <= r /\ Z.abs (snd x - snd a) <= r.
(** r: reach of the stencil *)
Definition vel_act (r : Z) (a : action) : Prop := velocity (fieldof (tgt a)) = true /\
  forall x, In x (reads (rhs a)) -> x = tgt a \/ (medium (fieldof x) = true /\ at_cell (tgt a) x) \/ tap (fieldof x) = true \/
    (stress_field (fieldof x) = true /\ near_loc r (tgt a) x).
Definition str_act (r : Z) (a : action) : Prop := stress_field (fieldof (tgt a)) = true /\
  forall x, In x (reads (rhs a)) -> x = tgt a \/ (medium (fieldof x) = true /\ at_cell (tgt a) x) \/
    (velocity (fieldof x) = true /\ near_loc r (tgt a) x).

Definition W_vel := [VX; VZ].
Definition W_str := [TZZ; TXX; TXZ].
Lemma vel_conflict_free r l : NoDup (map tgt l) -> Forall (vel_act r) l -> conflict_free l.
Proof.
  intros N F. apply (conflict_free_fields _ W_vel N).
  - eapply Forall_impl; [|exact F]. intros a [V _]. destruct (fieldof (tgt a)); try discriminate; cbn; tauto.
  - eapply Forall_impl; [|exact F]. intros a [_ R] x Hx Hw. destruct (R x Hx) as [|[[M _]|[T|[S _]]]]; [assumption|..]; exfalso;
      destruct (fieldof x); try discriminate; cbn in Hw; intuition discriminate.
Qed.
Lemma str_conflict_free r l : NoDup (map tgt l) -> Forall (str_act r) l -> conflict_free l.
Proof.
  intros N F. apply (conflict_free_fields _ W_str N).
  - eapply Forall_impl; [|exact F]. intros a [V _]. destruct (fieldof (tgt a)); try discriminate; cbn; tauto.
  - eapply Forall_impl; [|exact F]. intros a [_ R] x Hx Hw. destruct (R x Hx) as [|[[M _]|[S _]]]; [assumption|..]; exfalso;
      destruct (fieldof x); try discriminate; cbn in Hw; intuition discriminate.
Qed.

Lemma NoDup_loop1 x0 x1 z0 z1 f e : NoDup (map tgt (loop x0 x1 z0 z1 (fun ix iz => [mk_action (f, ix, iz) (e ix iz)]))).
Proof.
  apply NoDup_loop; [intros; cbn; repeat constructor; intros []|]. intros ix iz a [<-|[]]. now split.
Qed.
Lemma NoDup_two (a b : list action) f : NoDup (map tgt a) -> NoDup (map tgt b) -> Forall (fun x => fieldof (tgt x) = f) a ->
  Forall (fun x => fieldof (tgt x) <> f) b -> NoDup (map tgt (a ++ b)).
Proof.
  intros Na Nb Fa Fb. rewrite map_app. apply NoDup_app_iff; auto. intros x Hx Hy.
  apply in_map_iff in Hx as (p & <- & Hp), Hy as (q & E & Hq). rewrite Forall_forall in *.
  apply (Fb q Hq). rewrite E. now apply Fa.
Qed.

(** ** phases *)
Lemma phases_app a b : phases (a ++ Barrier :: b) = phases a ++ phases b.
Proof.
  induction a as [|i r IH]; [reflexivity|].
  destruct i; [destruct (phases_cons (For l) r) as (p & ps & E & E1); [congruence|]; destruct (phases_cons (For l) (r ++ Barrier :: b)) as (p' & ps' & E' & E1'); [congruence|]
              |destruct (phases_cons (All l) r) as (p & ps & E & E1); [congruence|]; destruct (phases_cons (All l) (r ++ Barrier :: b)) as (p' & ps' & E' & E1'); [congruence|]
              |cbn; now rewrite IH];
    change (phases ((?x :: r) ++ Barrier :: b)) with (phases (x :: r ++ Barrier :: b)); cbn [app]; rewrite E1, E1', IH, E in *; inversion E'; subst; reflexivity.
Qed.
Definition closed (l : list item) : Prop := l = [] \/ exists l', l = l' ++ [Barrier].
Lemma race_free_app T a b : closed a -> race_free T a -> race_free T b -> race_free T (a ++ b).
Proof.
  intros [->|(a' & ->)] Ra Rb; [exact Rb|]. unfold race_free in *. rewrite <- app_assoc. cbn [app]. rewrite phases_app in *.
  apply Forall_app in Ra as [Ra _]. apply Forall_app; now split.
Qed.
Lemma race_free_nil T : race_free T []. Proof. constructor; [apply conflict_free_nil|constructor]. Qed.
Lemma race_free_omp T l : conflict_free l -> race_free T (omp_for l).
Proof.
  intros C. unfold race_free. cbn [omp_for phases]. constructor; [cbn [flat_map work]; now rewrite ?app_nil_r|].
  constructor; [apply conflict_free_nil|constructor].
Qed.
Lemma race_free_omp2 T k l : conflict_free (k ++ l) -> race_free T [For k; For l; Barrier].
Proof.
  intros C. unfold race_free. cbn [omp_for phases]. constructor; [cbn [flat_map work]; now rewrite ?app_nil_r|].
  constructor; [apply conflict_free_nil|constructor].
Qed.
Lemma race_free_when T c l : (c = true -> race_free T l) -> race_free T (when c l).
Proof. destruct c; cbn; intros; [auto|apply race_free_nil]. Qed.
Lemma closed_omp l : closed (omp_for l). Proof. right. now exists [For l]. Qed.
Lemma closed_app a b : closed a -> closed b -> closed (a ++ b).
Proof. intros Ha [->|(b' & ->)]; [now rewrite app_nil_r|]. right. exists (a ++ b'). now rewrite app_assoc. Qed.
Lemma closed_when c l : closed l -> closed (when c l). Proof. destruct c; [auto|left; reflexivity]. Qed.

(** ** classes of the loops *)
Ltac place := unfold at_cell, near_loc; cbn [fst snd tgt fieldof]; first [now split|split; lia].
Ltac classify Hr := decompose [or ex and] Hr; clear Hr; subst;
  first [left; reflexivity | right; left; split; [reflexivity|place] | right; right; left; split; [reflexivity|place]
        | right; right; right; split; [reflexivity|place]].

Lemma vel_minus r f e ix iz : velocity f = true ->
  (forall x, In x (reads e) -> (medium (fieldof x) = true /\ at_cell (f, ix, iz) x) \/ tap (fieldof x) = true \/
     (stress_field (fieldof x) = true /\ near_loc r (f, ix, iz) x)) -> vel_act r (minus_eq f ix iz e).
Proof.
  intros Hf R. split; [exact Hf|]. intros x. unfold minus_eq. cbn [tgt rhs reads]. rewrite in_app_iff. cbn [In].
  intros [[<-|[]]|Hx]; [now left|right; auto].
Qed.
Lemma str_minus r f e ix iz : stress_field f = true ->
  (forall x, In x (reads e) -> (medium (fieldof x) = true /\ at_cell (f, ix, iz) x) \/
     (velocity (fieldof x) = true /\ near_loc r (f, ix, iz) x)) -> str_act r (minus_eq f ix iz e).
Proof.
  intros Hf R. split; [exact Hf|]. intros x. unfold minus_eq. cbn [tgt rhs reads]. rewrite in_app_iff. cbn [In].
  intros [[<-|[]]|Hx]; [now left|right; auto].
Qed.

Section Classes.
Context (h : Z) (Hh : 2 <= h).
Section Stencils.
Context (cs : list expr) (Lc : literals cs) (Hc : Z.of_nat (length cs) <= h).
Ltac one R f ix iz := (apply (vel_minus h f) || apply (str_minus h f)); [reflexivity|]; intros x Hr; apply R in Hr; try exact Lc;
  decompose [or ex and] Hr; clear Hr; subst x;
  first [left; split; [reflexivity|now split] | right; right; split; [reflexivity|split; cbn [fst snd]; lia] | right; split; [reflexivity|split; cbn [fst snd]; lia]].
Lemma cl_vx_ac ix iz : vel_act h (minus_eq VX ix iz (vx_ac cs ix iz)). Proof. one reads_vx_ac VX ix iz. Qed.
Lemma cl_vz_ac ix iz : vel_act h (minus_eq VZ ix iz (vz_ac cs ix iz)). Proof. one reads_vz_ac VZ ix iz. Qed.
Lemma cl_vx_el ix iz : vel_act h (minus_eq VX ix iz (vx_el cs ix iz)). Proof. one reads_vx_el VX ix iz. Qed.
Lemma cl_vz_el ix iz : vel_act h (minus_eq VZ ix iz (vz_el cs ix iz)). Proof. one reads_vz_el VZ ix iz. Qed.
Lemma cl_p_ac ix iz : str_act h (minus_eq TZZ ix iz (p_ac cs ix iz)). Proof. one reads_p_ac TZZ ix iz. Qed.
Lemma cl_txz ix iz : str_act h (minus_eq TXZ ix iz (txz_el cs ix iz)). Proof. one reads_txz_el TXZ ix iz. Qed.
Lemma cl_txx lam ix iz : medium lam = true -> str_act h (minus_eq TXX ix iz (txx_el cs lam ix iz)).
Proof.
  intros Hm. apply str_minus; [reflexivity|]. intros x Hr. apply reads_txx_el in Hr; [|exact Lc].
  destruct Hr as [->|[->|[(d & Hd & ->)|(d & Hd & ->)]]];
    first [left; split; [reflexivity|now split] | left; split; [exact Hm|now split] | right; split; [reflexivity|split; cbn [fst snd]; lia]].
Qed.
Lemma cl_tzz lam ix iz : medium lam = true -> str_act h (minus_eq TZZ ix iz (tzz_el cs lam ix iz)).
Proof.
  intros Hm. apply str_minus; [reflexivity|]. intros x Hr. apply reads_tzz_el in Hr; [|exact Lc].
  destruct Hr as [->|[->|[(d & Hd & ->)|(d & Hd & ->)]]];
    first [left; split; [reflexivity|now split] | left; split; [exact Hm|now split] | right; split; [reflexivity|split; cbn [fst snd]; lia]].
Qed.
End Stencils.
Ltac one R f ix iz := (apply (vel_minus h f) || apply (str_minus h f)); [reflexivity|]; intros x Hr; apply R in Hr;
  decompose [or ex and] Hr; clear Hr; subst x;
  first [left; split; [reflexivity|now split] | right; right; split; [reflexivity|split; cbn [fst snd]; lia] | right; split; [reflexivity|split; cbn [fst snd]; lia]].
Lemma cl_vx_sh ix iz : vel_act h (minus_eq VX ix iz (vx_sh ix iz)). Proof. one reads_vx_sh VX ix iz. Qed.
Lemma cl_vz_sh ix iz : vel_act h (minus_eq VZ ix iz (vz_sh ix iz)). Proof. one reads_vz_sh VZ ix iz. Qed.
Lemma cl_p_sh ix iz : str_act h (minus_eq TZZ ix iz (p_sh ix iz)). Proof. one reads_p_sh TZZ ix iz. Qed.

Lemma cl_taper_vx elastic tp ix iz : (forall x, In x (reads (tp ix iz)) -> tap (fieldof x) = true) -> Forall (vel_act h) (taper_vx elastic tp ix iz).
Proof.
  intros T. constructor; [|constructor]. split; [reflexivity|]. intros x. cbn [rhs tgt reads]. rewrite !in_app_iff. cbn [In].
  intros [[[<-|[]]|Hr]|Hr]; [now left| |right; right; left; auto]. right.
  destruct elastic; cbn [vx_bnd] in Hr; [apply reads_vx_el in Hr; [|exact lit_coef4]|apply reads_vx_ac in Hr; [|exact lit_coef4]];
    change (Z.of_nat (length coef4)) with 2 in Hr; decompose [or ex and] Hr; clear Hr; subst x;
    first [left; split; [reflexivity|now split] | right; right; split; [reflexivity|split; cbn [fst snd]; lia]].
Qed.
Lemma cl_taper_vz elastic tp ix iz : (forall x, In x (reads (tp ix iz)) -> tap (fieldof x) = true) -> Forall (vel_act h) (taper_vz elastic tp ix iz).
Proof.
  intros T. constructor; [|constructor]. split; [reflexivity|]. intros x. cbn [rhs tgt reads]. rewrite !in_app_iff. cbn [In].
  intros [[[<-|[]]|Hr]|Hr]; [now left| |right; right; left; auto]. right.
  destruct elastic; cbn [vz_bnd] in Hr; [apply reads_vz_el in Hr; [|exact lit_coef4]|apply reads_vz_ac in Hr; [|exact lit_coef4]];
    change (Z.of_nat (length coef4)) with 2 in Hr; decompose [or ex and] Hr; clear Hr; subst x;
    first [left; split; [reflexivity|now split] | right; right; split; [reflexivity|split; cbn [fst snd]; lia]].
Qed.
End Classes.

(** a velocity loop of one taper *)
Definition vel_item (h : Z) (l : list action) : Prop := Forall (vel_act h) l /\ NoDup (map tgt l).
Definition field_of_all (f : field) (l : list action) : Prop := Forall (fun a => fieldof (tgt a) = f) l.
Lemma field_loop1 x0 x1 z0 z1 f e : field_of_all f (loop x0 x1 z0 z1 (fun ix iz => [mk_action (f, ix, iz) (e ix iz)])).
Proof. apply Forall_loop. intros. now repeat constructor. Qed.

(** programs that are sequences of barrier-terminated velocity loops *)
Inductive vel_prog (h : Z) : list item -> Prop :=
| vel_nil : vel_prog h []
| vel_cons l r : vel_item h l -> vel_prog h r -> vel_prog h (omp_for l ++ r).
Lemma vel_prog_app h a b : vel_prog h a -> vel_prog h b -> vel_prog h (a ++ b).
Proof. induction 1; intros; [assumption|]. rewrite <- app_assoc. constructor; auto. Qed.
Lemma vel_prog_when h c l : (c = true -> vel_prog h l) -> vel_prog h (when c l).
Proof. destruct c; cbn; intros; [auto|constructor]. Qed.
Lemma vel_prog_one h l : vel_item h l -> vel_prog h (omp_for l).
Proof. intros. rewrite <- (app_nil_r (omp_for l)). now constructor; [|constructor]. Qed.
Lemma vel_prog_closed h l : vel_prog h l -> closed l.
Proof. induction 1; [now left|]. apply closed_app; [apply closed_omp|assumption]. Qed.
Lemma vel_prog_race_free h T l : vel_prog h l -> race_free T l.
Proof.
  induction 1 as [|l r [F N] H IH]; [apply race_free_nil|]. apply race_free_app; [apply closed_omp| |exact IH].
  apply race_free_omp. eapply vel_conflict_free; eauto.
Qed.

Ltac taper_loops := cbv zeta; repeat (apply vel_prog_app || (apply vel_prog_when; intros)); (apply vel_prog_one; split;
  [apply Forall_loop; intros; (apply cl_taper_vx || apply cl_taper_vz); [assumption|intros x [<-|[]]; reflexivity]|apply NoDup_loop1]).
Section Tapers.
Context (g : grid) (b : bnd) (elastic : bool) (h : Z) (Hh : 2 <= h).
Lemma vel_taper_top : vel_prog h (taper_top g b elastic). Proof. unfold taper_top. taper_loops. Qed.
Lemma vel_taper_bot : vel_prog h (taper_bot g b elastic). Proof. unfold taper_bot. taper_loops. Qed.
Lemma vel_taper_lef : vel_prog h (taper_lef g b elastic). Proof. unfold taper_lef. taper_loops. Qed.
Lemma vel_taper_rig : vel_prog h (taper_rig g b elastic). Proof. unfold taper_rig. taper_loops. Qed.
(** the bottom taper starts with a loop over vx *)
Lemma taper_bot_first : exists l r, taper_bot g b elastic = omp_for l ++ r /\ vel_item h l /\ field_of_all VX l /\ vel_prog h r.
Proof.
  unfold taper_bot. cbv zeta. do 2 eexists. rewrite <- !app_assoc. split; [reflexivity|]. conjs.
  - split; [apply Forall_loop; intros; apply cl_taper_vx; [assumption|intros x [<-|[]]; reflexivity]|apply NoDup_loop1].
  - apply field_loop1.
  - taper_loops.
Qed.
End Tapers.

(** ** the acoustic free surface *)
Definition free_act (a : action) : Prop := fieldof (tgt a) = VZ /\ forall x, In x (reads (rhs a)) -> fieldof x = VZ /\ near_loc 3 (tgt a) x.
Lemma free_top_acts g surface : Forall free_act (free_top g surface).
Proof.
  apply Forall_flat_map_range. intros ix _. apply Forall_cons; [|apply Forall_cons; [|apply Forall_nil]];
    (split; [reflexivity|]; intros x [<-|[]]; split; [reflexivity|split; cbn [fst snd tgt]; lia]).
Qed.
Lemma in_free_top g surface a : In a (free_top g surface) -> exists ix, ioPx g <= ix < iePx g /\
  ((tgt a = (VZ, ix, surface ix) /\ reads (rhs a) = [(VZ, ix, surface ix + 1)]) \/
   (tgt a = (VZ, ix, surface ix - 1) /\ reads (rhs a) = [(VZ, ix, surface ix + 2)])).
Proof.
  intros H. apply in_flat_map in H as (ix & Hx & H). apply in_range in Hx. exists ix. split; [exact Hx|].
  destruct H as [<-|[<-|[]]]; [left|right]; now split.
Qed.
Lemma free_top_NoDup g surface : NoDup (map tgt (free_top g surface)).
Proof.
  unfold free_top. rewrite map_flat_map. apply NoDup_flat_map; [apply NoDup_range| |].
  - intros ix _. cbn. constructor; [|repeat constructor; intros []]. intros [E|[]]. apply (f_equal snd) in E. cbn [snd] in E. lia.
  - intros ix iy l _ _. cbn. intros [<-|[<-|[]]] [E|[E|[]]]; congruence.
Qed.
(** together with a loop over vx *)
Lemma free_top_conflict_free g surface h l : vel_item h l -> field_of_all VX l -> conflict_free (free_top g surface ++ l).
Proof.
  intros [F N] X. split.
  - apply NoDup_two with (f := VZ); [apply free_top_NoDup|exact N| |].
    + eapply Forall_impl; [|apply free_top_acts]. now intros a [E _].
    + eapply Forall_impl; [|exact X]. cbn. congruence.
  - unfold field_of_all in X. rewrite Forall_forall in F, X. intros a c Ha Hc Hr. rewrite in_app_iff in *. destruct Hc as [Hc|Hc].
    + destruct Ha as [Ha|Ha].
      * apply in_free_top in Ha as (ix & _ & [[Ea _]|[Ea _]]), Hc as (iy & _ & [[_ Ec]|[_ Ec]]); rewrite Ea, Ec in Hr;
          destruct Hr as [E|[]]; exfalso; injection E; intros ? ->; lia.
      * apply in_free_top in Hc as (iy & _ & [[_ Ec]|[_ Ec]]); rewrite Ec in Hr; destruct Hr as [E|[]]; specialize (X a Ha);
          rewrite <- E in X; discriminate.
    + destruct (F c Hc) as [V R]. destruct (R _ Hr) as [E|[[M _]|[T|[S _]]]]; [exact E|..]; exfalso; destruct Ha as [Ha|Ha];
        (specialize (X a Ha) || (apply in_free_top in Ha as (ix & _ & [[Ea _]|[Ea _]]); rewrite Ea in * )); try discriminate;
        rewrite X in *; discriminate.
Qed.

Section Boundaries.
Context (g : grid) (b : bnd) (elastic : bool) (surface : Z -> Z) (h : Z) (Hh : 2 <= h).
Context (Hbot : bot b = 4) (Hlef : lef b = 4) (Hrig : rig b = 4).
Lemma boundariesP_tapered : top b = 4 -> vel_prog h (boundariesP g b elastic surface).
Proof.
  intros Ht. unfold boundariesP. rewrite Ht, Hbot, Hlef, Hrig. rewrite andb_false_r. cbn [Z.eqb Pos.eqb tapered when app].
  apply vel_prog_app; [now apply vel_taper_top|]. apply vel_prog_app; [now apply vel_taper_bot|].
  apply vel_prog_app; [now apply vel_taper_lef|now apply vel_taper_rig].
Qed.
Lemma boundariesP_free : top b = 1 -> elastic = false -> exists l r, boundariesP g b elastic surface = [For (free_top g surface); For l; Barrier] ++ r /\
  vel_item h l /\ field_of_all VX l /\ vel_prog h r.
Proof.
  intros Ht ->. unfold boundariesP. rewrite Ht, Hbot, Hlef, Hrig. cbn [Z.eqb Pos.eqb tapered when app andb negb].
  destruct (taper_bot_first g b false h Hh) as (l & r & -> & V & X & R). exists l. eexists. conjs; [reflexivity|exact V|exact X|].
  apply vel_prog_app; [exact R|]. apply vel_prog_app; [now apply vel_taper_lef|now apply vel_taper_rig].
Qed.
Lemma race_free_P T : top b = 4 \/ (top b = 1 /\ elastic = false) -> race_free T (boundariesP g b elastic surface) /\ closed (boundariesP g b elastic surface).
Proof.
  intros [Ht|[Ht E]].
  - pose proof (boundariesP_tapered Ht). split; [eapply vel_prog_race_free|eapply vel_prog_closed]; eauto.
  - destruct (boundariesP_free Ht E) as (l & r & -> & V & X & R).
    assert (C : closed [For (free_top g surface); For l; Barrier]) by (right; now exists [For (free_top g surface); For l]).
    split; [|apply closed_app; [exact C|eapply vel_prog_closed; eauto]].
    apply race_free_app; [exact C|apply race_free_omp2, (free_top_conflict_free g surface h); auto|eapply vel_prog_race_free; eauto].
Qed.
Lemma boundariesV_shape : boundariesV g b elastic surface = when (negb elastic && (top b =? 1)) [For (map (fun ix => mk_action (TZZ, ix, surface ix) (lit 0 1)) (range (ioPx g) (iePx g)))] ++ [Barrier].
Proof. unfold boundariesV. rewrite Hbot, Hlef, Hrig. cbn [Z.eqb Pos.eqb when app]. rewrite app_nil_r. destruct elastic, (top b =? 1); reflexivity. Qed.
Lemma race_free_V T : race_free T (boundariesV g b elastic surface).
Proof.
  rewrite boundariesV_shape. destruct (negb elastic && (top b =? 1)); [|constructor; [apply conflict_free_nil|constructor; [apply conflict_free_nil|constructor]]].
  apply race_free_omp. split.
  - rewrite map_map. cbn [tgt]. apply FinFun.Injective_map_NoDup; [intros x y E; congruence|apply NoDup_range].
  - intros a c Ha Hc. apply in_map_iff in Hc as (ix & <- & _). intros [].
Qed.
End Boundaries.

(** ** sources *)
(** the assignment belongs to the k-th source, at sources[k] shifted by the offset [o] *)
Definition src_act (o : Z * Z) (sources : list (Z * Z)) (a : action) : Prop := wavefield (fieldof (tgt a)) = true /\
  exists k s, nth_error sources k = Some s /\ snd (fst (tgt a)) = fst s + fst o /\ snd (tgt a) = snd s + snd o /\
  forall x, In x (reads (rhs a)) -> x = tgt a \/ (medium (fieldof x) = true /\ at_cell (tgt a) x) \/ x = (SRC, Z.of_nat k, 0).
Lemma combine_seq_nth {A} (l : list A) : forall n k s, In (k, s) (combine (seq n (length l)) l) -> (n <= k)%nat /\ nth_error l (k - n) = Some s.
Proof.
  induction l as [|a r IH]; intros n k s H; [destruct H|]. cbn in H. destruct H as [E|H].
  - inversion E; subst. split; [lia|]. now rewrite Nat.sub_diag.
  - apply IH in H as [H1 H2]. split; [lia|]. now replace (k - n)%nat with (S (k - S n)) by lia.
Qed.
Section Sources.
Context (g : grid) (b : bnd) (elastic : bool) (src_type : Z) (sources : list (Z * Z)) (dxi : Q).
Let o := src_offset g b src_type.
Lemma source_at_tgt k s a : In a (source_at g b elastic src_type dxi k s) -> wavefield (fieldof (tgt a)) = true /\
  snd (fst (tgt a)) = fst s + fst o /\ snd (tgt a) = snd s + snd o /\
  forall x, In x (reads (rhs a)) -> x = tgt a \/ (medium (fieldof x) = true /\ at_cell (tgt a) x) \/ x = (SRC, Z.of_nat k, 0).
Proof.
  unfold source_at. cbv zeta. fold o. destruct (_ || _); [intros []|].
  destruct (src_type =? 6); [|destruct (src_type =? 7); [|destruct (src_type =? 1); [destruct elastic|]]]; cbn [In]; intros H;
    try contradiction; decompose [or] H; clear H; try contradiction; subst a; (split; [reflexivity|split; [reflexivity|split; [reflexivity|]]]);
    cbn [plus_eq rhs reads tgt app In lit]; unfold at_cell; intros x Hx; decompose [or] Hx; clear Hx; try contradiction; subst x; cbn [fieldof fst snd medium]; auto.
Qed.
Lemma source_acts : Forall (src_act o sources) (flat_map (fun '(k, s) => source_at g b elastic src_type dxi k s) (combine (seq 0 (length sources)) sources)).
Proof.
  apply Forall_forall. intros a Ha. apply in_flat_map in Ha as ([k s] & Hks & Ha). apply combine_seq_nth in Hks as [_ Hks].
  rewrite Nat.sub_0_r in Hks. apply source_at_tgt in Ha as (W & A & B & C). split; [exact W|]. exists k, s. auto.
Qed.
Lemma source_conflict_free : NoDup sources -> conflict_free (flat_map (fun '(k, s) => source_at g b elastic src_type dxi k s) (combine (seq 0 (length sources)) sources)).
Proof.
  intros N. apply (conflict_free_fields _ [VX; VZ; TZZ; TXX; TXZ]).
  - rewrite map_flat_map. apply NoDup_flat_map.
    + apply (NoDup_map_inv fst). generalize (@eq_refl nat (length sources)). generalize (length sources) at 1 3 as n. intros n E.
      replace (map fst (combine (seq 0 n) sources)) with (seq 0 n); [apply seq_NoDup|].
      clear N. revert E. generalize 0%nat. revert n. clear. induction sources as [|s r IH]; intros n st E; subst n; [reflexivity|]. cbn. f_equal. now apply IH.
    + intros [k s] _. unfold source_at. cbv zeta. destruct (_ || _); [constructor|].
      destruct (src_type =? 6); [|destruct (src_type =? 7); [|destruct (src_type =? 1); [destruct elastic|]]]; cbn; repeat constructor; intros H; cbn in H; intuition discriminate.
    + intros [k s] [k' s'] l Hk Hk' H H'. apply in_map_iff in H as (a & <- & Ha), H' as (a' & E & Ha').
      apply source_at_tgt in Ha as (_ & A1 & A2 & _), Ha' as (_ & B1 & B2 & _). rewrite E in *.
      assert (s = s') by (destruct s, s'; cbn [fst snd] in *; f_equal; lia). subst s'.
      apply combine_seq_nth in Hk as [_ Hk], Hk' as [_ Hk']. rewrite Nat.sub_0_r in *.
      rewrite NoDup_nth_error in N. f_equal. apply N; [apply nth_error_Some; congruence|congruence].
  - eapply Forall_impl; [|apply source_acts]. intros a [Wf _]. destruct (fieldof (tgt a)); try discriminate; cbn; tauto.
  - eapply Forall_impl; [|apply source_acts]. intros a (_ & k & s & _ & _ & _ & R) x Hx Hw.
    destruct (R x Hx) as [|[[M _]| ->]]; [assumption| |cbn in Hw; intuition discriminate].
    exfalso. destruct (fieldof x); try discriminate; cbn in Hw; intuition discriminate.
Qed.
Lemma race_free_S T : NoDup sources -> race_free T (applySource g b elastic src_type sources dxi).
Proof. intros N. apply race_free_omp, source_conflict_free, N. Qed.
Lemma closed_S : closed (applySource g b elastic src_type sources dxi). Proof. apply closed_omp. Qed.
End Sources.

(** ** the main loops of a kernel *)
Lemma race_free_vel g h T e e' : (forall ix iz, vel_act h (minus_eq VX ix iz (e ix iz))) -> (forall ix iz, vel_act h (minus_eq VZ ix iz (e' ix iz))) ->
  race_free T [For (vx_loop g e); For (vz_loop g e'); Barrier].
Proof.
  intros X Zv. apply race_free_omp2, (vel_conflict_free h).
  - apply NoDup_two with (f := VX); [apply NoDup_loop1|apply NoDup_loop1|apply field_loop1|].
    eapply Forall_impl; [|apply (field_loop1 _ _ _ _ VZ (fun ix iz => Sub (Rd VZ ix iz) (e' ix iz)))]. cbn. intros; congruence.
  - apply Forall_app. split; apply Forall_loop; intros; (apply Forall_cons; [|apply Forall_nil]); apply X || apply Zv.
Qed.
Lemma race_free_p g h T e : (forall ix iz, str_act h (minus_eq TZZ ix iz (e ix iz))) -> race_free T [For (p_loop g e); Barrier].
Proof.
  intros P. apply (race_free_omp T (p_loop g e)), (str_conflict_free h); [apply NoDup_loop1|]. apply Forall_loop. intros. apply Forall_cons; [apply P|apply Forall_nil].
Qed.
Lemma stress_loop_NoDup g cs lam : NoDup (map tgt (stress_loop g cs lam)).
Proof.
  apply NoDup_loop; [intros; cbn; repeat constructor; cbn; intuition congruence|].
  intros ix iz a [<-|[<-|[]]]; now split.
Qed.
Lemma stress_loop_fields g cs lam : Forall (fun a => fieldof (tgt a) <> TXZ) (stress_loop g cs lam).
Proof. apply Forall_loop. intros. repeat constructor; cbn; congruence. Qed.
Lemma stress_loop_acts g cs lam h : 2 <= h -> literals cs -> Z.of_nat (length cs) <= h -> medium lam = true -> Forall (str_act h) (stress_loop g cs lam).
Proof. intros. apply Forall_loop. intros. apply Forall_cons; [now apply cl_txx|]. apply Forall_cons; [now apply cl_tzz|apply Forall_nil]. Qed.

Lemma closed_cons2 k l : closed [For k; For l; Barrier]. Proof. right. now exists [For k; For l]. Qed.
Lemma closed_cons1 k : closed [For k; Barrier]. Proof. right. now exists [For k]. Qed.

Section Kernel.
Context (g : grid) (b : bnd) (surface : Z -> Z) (src_type : Z) (sources : list (Z * Z)) (dxi : Q).
Context (Hbot : bot b = 4) (Hlef : lef b = 4) (Hrig : rig b = 4) (Hsrc : NoDup sources).

Lemma race_free_acoustic4 T : top b = 4 \/ top b = 1 -> race_free T (acoustic4 g b false surface src_type sources dxi).
Proof.
  intros Ht. unfold acoustic4, force, stress. destruct (race_free_P g b false surface 2 ltac:(lia) Hbot Hlef Hrig T) as [RP CP]; [tauto|].
  apply race_free_app; [apply closed_cons2|apply (race_free_vel g 2); intros; [apply cl_vx_ac|apply cl_vz_ac]; try exact lit_coef4opt; cbn; lia|].
  apply race_free_app; [exact CP|exact RP|].
  apply race_free_app; [apply closed_when, closed_S|apply race_free_when; intros; now apply race_free_S|].
  apply race_free_app; [apply closed_cons1|apply (race_free_p g 2); intros; apply cl_p_ac; try exact lit_coef4opt; cbn; lia|].
  apply race_free_app; [apply closed_when, closed_S|apply race_free_when; intros; now apply race_free_S|].
  now apply race_free_V.
Qed.
Lemma race_free_generic T h ex ez ep : 2 <= h -> (forall ix iz, vel_act h (minus_eq VX ix iz (ex ix iz))) -> (forall ix iz, vel_act h (minus_eq VZ ix iz (ez ix iz))) ->
  (forall ix iz, str_act h (minus_eq TZZ ix iz (ep ix iz))) -> top b = 4 \/ top b = 1 ->
  race_free T ([For (vx_loop g ex); For (vz_loop g ez); Barrier] ++ force g b false src_type sources dxi ++ boundariesP g b false surface ++
    [For (p_loop g ep); Barrier] ++ stress g b false src_type sources dxi ++ boundariesV g b false surface).
Proof.
  intros Hh X Zv P Ht. unfold force, stress. destruct (race_free_P g b false surface h ltac:(lia) Hbot Hlef Hrig T) as [RP CP]; [tauto|].
  apply race_free_app; [apply closed_cons2|now apply (race_free_vel g h)|].
  apply race_free_app; [apply closed_when, closed_S|apply race_free_when; intros; now apply race_free_S|].
  apply race_free_app; [exact CP|exact RP|].
  apply race_free_app; [apply closed_cons1|now apply (race_free_p g h)|].
  apply race_free_app; [apply closed_when, closed_S|apply race_free_when; intros; now apply race_free_S|].
  now apply race_free_V.
Qed.
Lemma race_free_elastic6 T : top b = 4 -> race_free T (elastic6 g b true surface src_type sources dxi).
Proof.
  intros Ht. unfold elastic6, force, stress. destruct (race_free_P g b true surface 3 ltac:(lia) Hbot Hlef Hrig T) as [RP CP]; [tauto|].
  apply race_free_app; [apply closed_cons2|apply (race_free_vel g 3); intros; [apply cl_vx_el|apply cl_vz_el]; try exact lit_coef6; cbn; lia|].
  apply race_free_app; [apply closed_when, closed_S|apply race_free_when; intros; now apply race_free_S|].
  apply race_free_app; [exact CP|exact RP|].
  apply race_free_app; [apply closed_cons2| |].
  { apply race_free_omp2, (str_conflict_free 3).
    - rewrite map_app. apply (Permutation_NoDup (Permutation_app_comm _ _)). rewrite <- map_app.
      apply NoDup_two with (f := TXZ); [apply NoDup_loop1|apply stress_loop_NoDup|apply field_loop1|apply stress_loop_fields].
    - apply Forall_app. split; [apply stress_loop_acts; try exact lit_coef6; try reflexivity; cbn; lia|].
      apply Forall_loop. intros. apply Forall_cons; [|apply Forall_nil]. apply cl_txz; try exact lit_coef6; cbn; lia. }
  apply race_free_app; [apply closed_when, closed_S|apply race_free_when; intros; now apply race_free_S|].
  now apply race_free_V.
Qed.
End Kernel.
