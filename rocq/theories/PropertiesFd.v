(** C37 to C40: the finite-difference kernels of fdelmodc stay inside their arrays, do not
    depend on the number of threads or their schedule, are linear, and propagate at a bounded
    number of cells per time step. *)
From Coq Require Import ZArith List Bool QArith Qcanon Lia Permutation.
From Verif Require Import ListAux FdMachine FdKernels FdSpec FdProofs FdReads FdBounds FdRace FdLinear FdLocal FdSchedules.
Import ListNotations.
Local Open Scope Z_scope.

(** ** C37 *)
Ltac fin_with Hs Hl := first [lia | exact (@nil expr) | exact lit_coef4opt | exact lit_coef4 | exact lit_coef6 | exact lit_coef16 | reflexivity | discriminate | now cbn; tauto | assumption | (intros; now apply Hs) | (intros E; discriminate (Hl E)) | (intros; lia)].
Theorem C37_kernels_stay_in_grid : forall nx nz iorder b ischeme sh surface src_type sources dxi,
  0 < nx -> 0 < nz -> 0 < npml b -> scheme_ok ischeme iorder ->
  side_ok ischeme (top b) -> side_ok ischeme (bot b) -> side_ok ischeme (lef b) -> side_ok ischeme (rig b) ->
  (rig b = 3 -> iorder / 2 - 1 <= nx) -> (bot b = 3 -> iorder / 2 - 1 <= nz) -> (lef b = 3 -> iorder = 4) ->
  let g := getgrid nx nz iorder b in
  (top b = 1 -> forall ix, ioPx g <= ix < iePx g -> 1 <= surface ix /\ surface ix + 2 < naz g) ->
  Forall (source_ok nz) sources ->
  forall x, accesses (fd_kernel g b surface src_type sources dxi ischeme sh) x -> inside g b (length sources) x.
Proof.
  intros nx nz iorder b ischeme sh surface src_type sources dxi Hnx Hnz Hn Sc _ _ _ _ Hr Hb Hl g Hs Hsrc x (threads & a & Ha & Hx).
  assert (A : all_items (ok nx nz (iorder / 2) b sources) (fd_kernel g b surface src_type sources dxi ischeme sh)).
  { assert (D : forall h cs, iorder = 2 * h -> 2 <= h -> literals cs -> Z.of_nat (length cs) = h -> forall el, (ischeme = 1 -> el = false) ->
        all_items (ok nx nz h b sources) (boundariesP g b el surface) /\ all_items (ok nx nz h b sources) (boundariesV g b el surface) /\
        all_items (ok nx nz h b sources) (force g b el src_type sources dxi) /\ all_items (ok nx nz h b sources) (stress g b el src_type sources dxi)).
    { intros h cs E Hh Lc Hc el He. assert (Eh : iorder / 2 = h) by (rewrite E, Z.mul_comm; apply Z.div_mul; lia).
      subst g. rewrite Eh in *. rewrite E in *. assert (Hl' : lef b = 3 -> h = 2) by (intros Q; specialize (Hl Q); lia).
      assert (Hs' : top b = 1 -> el = false -> forall ix, ioPx (getgrid nx nz (2 * h) b) <= ix < iePx (getgrid nx nz (2 * h) b) -> 1 <= surface ix /\ surface ix + 2 < naz (getgrid nx nz (2 * h) b)) by auto.
      conjs; [apply bounds_P|apply bounds_V|apply all_items_when; intros; apply bounds_S with (surface := surface)|apply all_items_when; intros; apply bounds_S with (surface := surface)]; auto. }
    destruct Sc as [(-> & [-> | [-> | ->]])|[(-> & ->)|(-> & ->)]]; unfold fd_kernel; change (FdKernels.iorder g) with 4 || change (FdKernels.iorder g) with 6 || change (FdKernels.iorder g) with 16; cbv iota.
    - change (4 / 2) with 2. destruct (D 2 coef4opt eq_refl ltac:(lia) lit_coef4opt eq_refl false ltac:(auto)) as (P & Vv & F & S). destruct sh.
      + unfold acousticSH4. repeat (apply P || apply Vv || apply F || apply S || apply all_items_app || apply all_items_For_cons || apply all_items_barrier).
        * apply bounds_vx_sh with (surface := surface) (elastic := false); fin_with Hs Hl.
        * apply bounds_vz_sh with (surface := surface) (elastic := false); fin_with Hs Hl.
        * apply bounds_p_sh with (surface := surface) (elastic := false); fin_with Hs Hl.
      + unfold acoustic4. repeat (apply P || apply Vv || apply F || apply S || apply all_items_app || apply all_items_For_cons || apply all_items_barrier).
        * apply bounds_vx_ac with (surface := surface) (elastic := false); fin_with Hs Hl.
        * apply bounds_vz_ac with (surface := surface) (elastic := false); fin_with Hs Hl.
        * apply bounds_p_ac with (surface := surface) (elastic := false); fin_with Hs Hl.
    - change (6 / 2) with 3. destruct (D 3 coef6 eq_refl ltac:(lia) lit_coef6 eq_refl false ltac:(auto)) as (P & Vv & F & S).
      unfold acoustic6, acoustic_n. repeat (apply P || apply Vv || apply F || apply S || apply all_items_app || apply all_items_For_cons || apply all_items_barrier).
      + apply bounds_vx_ac with (surface := surface) (elastic := false); fin_with Hs Hl.
      + apply bounds_vz_ac with (surface := surface) (elastic := false); fin_with Hs Hl.
      + apply bounds_p_ac with (surface := surface) (elastic := false); fin_with Hs Hl.
    - change (16 / 2) with 8. destruct (D 8 coef16 eq_refl ltac:(lia) lit_coef16 eq_refl false ltac:(auto)) as (P & Vv & F & S).
      unfold acoustic16, acoustic_n. repeat (apply P || apply Vv || apply F || apply S || apply all_items_app || apply all_items_For_cons || apply all_items_barrier).
      + apply bounds_vx_ac with (surface := surface) (elastic := false); fin_with Hs Hl.
      + apply bounds_vz_ac with (surface := surface) (elastic := false); fin_with Hs Hl.
      + apply bounds_p_ac with (surface := surface) (elastic := false); fin_with Hs Hl.
    - change (6 / 2) with 3. destruct (D 3 coef6 eq_refl ltac:(lia) lit_coef6 eq_refl true ltac:(discriminate)) as (P & Vv & F & S).
      unfold elastic6. repeat (apply P || apply Vv || apply F || apply S || apply all_items_app || apply all_items_For_cons || apply all_items_barrier).
      + apply bounds_vx_el with (surface := surface) (elastic := true); fin_with Hs Hl.
      + apply bounds_vz_el with (surface := surface) (elastic := true); fin_with Hs Hl.
      + apply bounds_stress with (surface := surface) (elastic := true); fin_with Hs Hl.
      + apply bounds_txz_el with (surface := surface) (elastic := true); fin_with Hs Hl.
    - change (4 / 2) with 2. destruct (D 2 coef4 eq_refl ltac:(lia) lit_coef4 eq_refl true ltac:(discriminate)) as (P & Vv & F & S).
      unfold elastic4dc. repeat (apply P || apply Vv || apply F || apply S || apply all_items_app || apply all_items_For_cons || apply all_items_barrier || apply all_items_nil).
      + apply bounds_vx_el with (surface := surface) (elastic := true); fin_with Hs Hl.
      + apply bounds_vz_el with (surface := surface) (elastic := true); fin_with Hs Hl.
      + apply bounds_stress with (surface := surface) (elastic := true); fin_with Hs Hl. }
  specialize (all_items_work _ _ A threads a Ha x Hx). unfold g.
  replace (2 * (iorder / 2)) with iorder; [auto|]. destruct Sc as [(_ & [-> | [-> | ->]])|[(_ & ->)|(_ & ->)]]; reflexivity.
Qed.
Print Assumptions C37_kernels_stay_in_grid.

(** a 3 by 2 model with tapers of 2 cells, free surface, one source *)
Definition small_bnd : bnd := mk_bnd 1 4 4 4 2.
Definition small_grid : grid := getgrid 3 2 4 small_bnd.
Example C37_nonvacuous : let g := small_grid in let prog := fd_kernel g small_bnd (fun _ => ioPz g) 1 [(1, 1)] (1 # 10) 1 false in
  (top small_bnd = 1 -> forall ix, ioPx g <= ix < iePx g -> 1 <= ioPz g /\ ioPz g + 2 < naz g) /\ Forall (source_ok 2) [(1, 1)] /\
  accesses prog (TZZ, 4, 2) /\ accesses prog (VZ, 2, 0).
Proof.
  cbv zeta. conjs.
  - intros _ ix _. vm_compute. split; congruence.
  - apply Forall_cons; [|apply Forall_nil]. unfold source_ok. cbn. lia.
  - apply (accesses_found 1). vm_compute. reflexivity.
  - apply (accesses_found 1). vm_compute. reflexivity.
Qed.

(** The remaining schemes do leave their arrays.  Elastic fourth order: the shear stress loop
    starts at column ioPx = 1 and reads vz two columns to the left, whatever the sides are
    (short of PML). *)
Theorem C37_elastic4_refuted : forall nx nz b surface src_type sources dxi sh, 0 < nx -> 0 < nz -> 0 < npml b ->
  let g := getgrid nx nz 4 b in
  accesses (fd_kernel g b surface src_type sources dxi 3 sh) (VZ, -1, ioPz g) /\ ~ inside g b (length sources) (VZ, -1, ioPz g).
Proof.
  intros nx nz b surface src_type sources dxi sh Hx Hz Hn g. split; [|cbn [inside]; lia].
  exists 1%nat. exists (minus_eq TXZ 1 (ioPz g) (txz_el coef4 1 (ioPz g))). split; [|right; cbn; auto 20].
  change (fd_kernel g b surface src_type sources dxi 3 sh) with (elastic4 g b true surface src_type sources dxi).
  unfold elastic4. rewrite !flat_map_app, !in_app_iff. right. right. right. left. cbn [flat_map work app]. apply in_app_iff. right. rewrite app_nil_r.
  apply in_loop. exists 1, (ioPz g). assert (P : forall s, 0 <= (if tapered s then npml b else 0)) by (intros s; destruct (tapered s); lia).
  split; [|split; [|now left]]; cbn [getgrid ioPx iePx ioPz iePz g]; change (4 / 2) with 2;
    pose proof (P (lef b)); pose proof (P (rig b)); pose proof (P (top b)); pose proof (P (bot b)); lia.
Qed.
Print Assumptions C37_elastic4_refuted.
(** Acoustic second order: the x-range of the vz loop is taken from the z-range, so that deep
    and narrow models are left on the right. *)
Theorem C37_acoustic2_refuted : let b := mk_bnd 3 3 3 3 1 in let g := getgrid 2 9 2 b in
  accesses (fd_kernel g b (fun _ => ioPz g) 1 [] 1 1 false) (VZ, 9, 1) /\ ~ inside g b 0 (VZ, 9, 1).
Proof. cbv zeta. split; [apply (accesses_found 1); vm_compute; reflexivity|cbn; lia]. Qed.
Print Assumptions C37_acoustic2_refuted.
(** Second order with tapers: the taper loops use the fourth-order stencil. *)
Theorem C37_acoustic2_taper_refuted : let b := mk_bnd 4 4 4 4 3 in let g := getgrid 5 5 2 b in
  accesses (fd_kernel g b (fun _ => ioPz g) 1 [] 1 1 false) (TZZ, -1, 5) /\ ~ inside g b 0 (TZZ, -1, 5).
Proof. cbv zeta. split; [apply (accesses_found 1); vm_compute; reflexivity|cbn; lia]. Qed.
Print Assumptions C37_acoustic2_taper_refuted.
(** A rigid left side with sixth order: the mirrored columns are written at ib-ibnd instead of
    ibnd-ib. *)
Theorem C37_rigid_left_refuted : let b := mk_bnd 4 4 3 4 3 in let g := getgrid 5 5 6 b in
  (exists a, In a (flat_map (work 1) (fd_kernel g b (fun _ => ioPz g) 1 [] 1 1 false)) /\ tgt a = (VX, -1, 1)) /\ ~ inside g b 0 (VX, -1, 1).
Proof.
  cbv zeta. split; [|cbn; lia]. set (prog := flat_map _ _).
  assert (H : existsb (fun a => if loc_eq_dec (tgt a) (VX, -1, 1) then true else false) prog = true) by (vm_compute; reflexivity).
  apply existsb_exists in H as (a & Ha & H). exists a. split; [exact Ha|]. now destruct (loc_eq_dec _ _).
Qed.
Print Assumptions C37_rigid_left_refuted.

(** ** C38 *)
Definition safe_schedule (g : grid) (b : bnd) (ischeme : Z) : Prop :=
  bot b = 4 /\ lef b = 4 /\ rig b = 4 /\
  ((ischeme = 1 /\ (iorder g = 4 \/ iorder g = 6 \/ iorder g = 16) /\ (top b = 4 \/ top b = 1)) \/
   (ischeme = 3 /\ iorder g = 6 /\ top b = 4)).
(** For tapered sides (the top may be free in the acoustic schemes) and sources at different
    places the whole simulation gives bit for bit the same wave fields for every number of
    threads, every distribution of the loop iterations and every interleaving.  No law of
    arithmetic is used. *)
Theorem C38_threads_do_not_matter : forall {V} (O : ops V) g b surface src_type sources dxi ischeme sh threads ampl n m m',
  safe_schedule g b ischeme -> NoDup sources ->
  let prog := fd_kernel g b surface src_type sources dxi ischeme sh in
  team_march O threads prog ampl n m m' -> forall x, m' x = march O prog ampl n m x.
Proof.
  intros V O g b surface src_type sources dxi ischeme sh threads ampl n m m' (Hb & Hl & Hr & H) N prog R.
  destruct (race_free_fd g b surface src_type sources dxi ischeme sh threads H Hb Hl Hr N) as [RF NA]. fold prog in RF, NA.
  induction R as [m|n m m1 m2 R IH T]; intros x; [reflexivity|]. cbn [march].
  rewrite (team_serial O threads prog _ _ RF NA T x). apply serial_ext, with_sources_ext, IH.
Qed.
Print Assumptions C38_threads_do_not_matter.
(** and a team always can finish *)
Theorem C38_team_finishes : forall {V} (O : ops V) threads prog ampl n m, (0 < threads)%nat -> exists m', team_march O threads prog ampl n m m'.
Proof.
  intros V O threads prog ampl n m T. induction n as [|n (m1 & I)]; [eexists; constructor|].
  destruct (team_run_exists O threads prog (with_sources m1 (ampl n)) T) as (m2 & R). exists m2. econstructor; eauto.
Qed.
Print Assumptions C38_team_finishes.
Example C38_nonvacuous : safe_schedule small_grid small_bnd 1 /\ NoDup [(1, 1); (0, 1)] /\
  exists m', team_march Qops 3 (fd_kernel small_grid small_bnd (fun _ => ioPz small_grid) 1 [(1, 1); (0, 1)] (1 # 10) 1 false) (fun _ _ => 1%Q) 2 (fun _ => 1%Q) m'.
Proof.
  conjs.
  - unfold safe_schedule. cbn. tauto.
  - apply NoDup_cons; [intros [E|[]]; discriminate E|]. apply NoDup_cons; [intros []|apply NoDup_nil].
  - apply C38_team_finishes. lia.
Qed.

(** Where it fails.  acoustic2 has no worksharing: with two threads, one after the other, every
    update is applied twice. *)
Definition ramp : mem (V := Q) := fun '(f, ix, iz) => match f with TZZ => inject_Z (ix * ix + 2 * iz) | VX | VZ => inject_Z (ix + 3 * iz * iz) | SRC => 5%Q | _ => 1%Q end.
Theorem C38_acoustic2_refuted : let b := mk_bnd 1 1 1 1 1 in let g := getgrid 2 2 2 b in
  let prog := fd_kernel g b (fun _ => 1) 1 [(0, 0)] 1 1 false in
  exists m', team_run Qops 2 (phases prog) ramp m' /\ ~ Qeq (m' (VX, 1, 0)) (serial Qops prog ramp (VX, 1, 0)).
Proof. cbv zeta. eexists. split; [apply in_turn_run|]. vm_compute. discriminate. Qed.
Print Assumptions C38_acoustic2_refuted.
(** A free surface without a taper behind it: the loop over the surface does not wait, and the
    pressure loop, which is distributed differently, may read vz before it is mirrored. *)
Theorem C38_free_surface_refuted : let b := mk_bnd 1 1 1 1 1 in let g := getgrid 3 3 4 b in
  let prog := fd_kernel g b (fun _ => 1) 1 [] 1 1 false in
  exists m', team_run Qops 2 (phases prog) ramp m' /\ ~ Qeq (m' (TZZ, 2, 2)) (serial Qops prog ramp (TZZ, 2, 2)).
Proof.
  cbv zeta. set (b := mk_bnd 1 1 1 1 1). set (g := getgrid 3 3 4 b).
  exists (in_turn Qops (skipn 2 (phases (fd_kernel g b (fun _ => 1) 1 [] 1 1 false)))
     (exec_all Qops (p_loop g (p_ac coef4opt) ++ free_top g (fun _ => 1))
        (in_turn Qops (firstn 1 (phases (fd_kernel g b (fun _ => 1) 1 [] 1 1 false))) ramp))). split.
  - change (phases (fd_kernel g b (fun _ => 1) 1 [] 1 1 false)) with
      (firstn 1 (phases (fd_kernel g b (fun _ => 1) 1 [] 1 1 false)) ++ [[For (free_top g (fun _ => 1)); For (p_loop g (p_ac coef4opt))]] ++
       skipn 2 (phases (fd_kernel g b (fun _ => 1) 1 [] 1 1 false))) at 3.
    eapply run_cons; [apply two_in_turn, split_work|]. eapply run_cons; [|apply in_turn_run].
    cbn [firstn phases fd_kernel]. apply two_in_turn. cbn [flat_map work]. rewrite app_nil_r. apply Permutation_app_comm.
  - vm_compute. discriminate.
Qed.
Print Assumptions C38_free_surface_refuted.
(** elastic4dc: the last loop over the stresses does not wait either, and a source can be lost. *)
Theorem C38_elastic4dc_refuted : let b := mk_bnd 4 4 4 4 1 in let g := getgrid 1 1 4 b in
  let prog := fd_kernel g b (fun _ => 1) 1 [(0, 0)] 1 5 false in
  exists m', team_run Qops 2 (phases prog) ramp m' /\ ~ Qeq (m' (TXX, 2, 2)) (serial Qops prog ramp (TXX, 2, 2)).
Proof.
  cbv zeta. set (b := mk_bnd 4 4 4 4 1). set (g := getgrid 1 1 4 b). set (prog := fd_kernel g b (fun _ => 1) 1 [(0, 0)] 1 5 false).
  pose (sl := stress_loop g coef4 L2M). pose (src := flat_map (fun '(k, s) => source_at g b true 1 1 k s) (combine (seq 0 1) [(0, 0)])).
  exists (in_turn Qops (skipn 18 (phases prog))
     (interrupted Qops (firstn 8 sl) (nth 8 sl (mk_action (TXX, 0, 0) (Rd TXX 0 0))) (skipn 9 sl) src (in_turn Qops (firstn 17 (phases prog)) ramp))). split.
  - rewrite <- (firstn_skipn 17 (phases prog)) at 1. eapply team_run_app; [apply in_turn_run|].
    change (skipn 17 (phases prog)) with ([For sl; For src] :: skipn 18 (phases prog)).
    eapply run_cons; [|apply in_turn_run]. apply lost_update.
    change (firstn 8 sl ++ nth 8 sl (mk_action (TXX, 0, 0) (Rd TXX 0 0)) :: skipn 9 sl) with sl. cbn [flat_map work]. rewrite app_nil_r. apply Permutation_refl.
  - vm_compute. discriminate.
Qed.
Print Assumptions C38_elastic4dc_refuted.

(** ** C39 *)
(** With exact arithmetic: the wave fields of the sum of two source configurations (amplitudes
    and initial wave fields) in the same medium are the sums of the wave fields, and scaling
    the sources scales the wave fields; for every scheme, boundary and number of steps. *)
Theorem C39_superposition : forall {V} (O : ops V) zero g b surface src_type sources dxi ischeme sh ampl1 ampl2 ampl3 m1 m2 m3,
  linear O zero ->
  (forall f ix iz, wavefield f = true -> m3 (f, ix, iz) = v_add O (m1 (f, ix, iz)) (m2 (f, ix, iz))) ->
  (forall f ix iz, wavefield f = false -> f <> SRC -> m1 (f, ix, iz) = m3 (f, ix, iz) /\ m2 (f, ix, iz) = m3 (f, ix, iz)) ->
  (forall n k, ampl3 n k = v_add O (ampl1 n k) (ampl2 n k)) ->
  let prog := fd_kernel g b surface src_type sources dxi ischeme sh in
  forall n f ix iz, wavefield f = true ->
  march O prog ampl3 n m3 (f, ix, iz) = v_add O (march O prog ampl1 n m1 (f, ix, iz)) (march O prog ampl2 n m2 (f, ix, iz)).
Proof.
  intros V O zero g b surface src_type sources dxi ischeme sh ampl1 ampl2 ampl3 m1 m2 m3 L W M A prog n f ix iz Hf.
  (* the amplitudes stored initially are overwritten *)
  assert (I : forall m (a : nat -> Z -> V) n f ix iz, f <> SRC ->
    march O prog a n (with_sources m (a 0%nat)) (f, ix, iz) = march O prog a n m (f, ix, iz)).
  { intros m a k. induction k as [|k IH]; intros f' x z Hs; cbn [march].
    - unfold with_sources. destruct f'; congruence.
    - apply serial_ext. intros [[f2 x2] z2]. unfold with_sources at 1 3. destruct f2; try reflexivity; apply IH; discriminate. }
  assert (Hs : f <> SRC) by (intros ->; discriminate).
  rewrite <- (I m1 ampl1), <- (I m2 ampl2), <- (I m3 ampl3) by exact Hs.
  pose proof (march_sum O zero L prog ampl1 ampl2 ampl3 (lin_kernel g b surface src_type sources dxi ischeme sh) A n
    (with_sources m1 (ampl1 0%nat)) (with_sources m2 (ampl2 0%nat)) (with_sources m3 (ampl3 0%nat))) as S.
  specialize (S ltac:(intros [[f2 x2] z2]; unfold with_sources; cbn [fieldof fst]; destruct f2; cbn [dynamic wavefield]; auto; apply M; (reflexivity || discriminate))).
  specialize (S (f, ix, iz)). cbn [fieldof fst] in S. unfold dynamic in S. destruct f; try discriminate; exact S.
Qed.
Print Assumptions C39_superposition.
Theorem C39_scaling : forall {V} (O : ops V) zero g b surface src_type sources dxi ischeme sh ampl1 ampl2 c m1 m2,
  linear O zero ->
  (forall f ix iz, wavefield f = true -> m2 (f, ix, iz) = v_mul O c (m1 (f, ix, iz))) ->
  (forall f ix iz, wavefield f = false -> f <> SRC -> m1 (f, ix, iz) = m2 (f, ix, iz)) ->
  (forall n k, ampl2 n k = v_mul O c (ampl1 n k)) ->
  let prog := fd_kernel g b surface src_type sources dxi ischeme sh in
  forall n f ix iz, wavefield f = true ->
  march O prog ampl2 n m2 (f, ix, iz) = v_mul O c (march O prog ampl1 n m1 (f, ix, iz)).
Proof.
  intros V O zero g b surface src_type sources dxi ischeme sh ampl1 ampl2 c m1 m2 L W M A prog n f ix iz Hf.
  assert (I : forall m (a : nat -> Z -> V) n f ix iz, f <> SRC ->
    march O prog a n (with_sources m (a 0%nat)) (f, ix, iz) = march O prog a n m (f, ix, iz)).
  { intros m a k. induction k as [|k IH]; intros f' x z Hs; cbn [march].
    - unfold with_sources. destruct f'; congruence.
    - apply serial_ext. intros [[f2 x2] z2]. unfold with_sources at 1 3. destruct f2; try reflexivity; apply IH; discriminate. }
  assert (Hs : f <> SRC) by (intros ->; discriminate).
  rewrite <- (I m1 ampl1), <- (I m2 ampl2) by exact Hs.
  pose proof (march_scaled O zero L prog c ampl1 ampl2 (lin_kernel g b surface src_type sources dxi ischeme sh) A n
    (with_sources m1 (ampl1 0%nat)) (with_sources m2 (ampl2 0%nat))) as S.
  specialize (S ltac:(intros [[f2 x2] z2]; unfold with_sources; cbn [fieldof fst]; destruct f2; cbn [dynamic wavefield]; auto; apply M; (reflexivity || discriminate))).
  specialize (S (f, ix, iz)). cbn [fieldof fst] in S. unfold dynamic in S. destruct f; try discriminate; exact S.
Qed.
Print Assumptions C39_scaling.

(** exact rationals are an instance *)
Definition Qcops : ops Qc := mk_ops Qc Q2Qc Qcplus Qcminus Qcmult Qcdiv Qcopp.
Lemma Qc_linear : linear Qcops 0%Qc.
Proof. constructor; cbn; intros; try reflexivity; try ring; unfold Qcdiv; ring. Qed.
Example C39_nonvacuous : let prog := fd_kernel small_grid small_bnd (fun _ => ioPz small_grid) 1 [(1, 1)] (1 # 10) 1 false in
  let m := fun x : loc => if wavefield (fst (fst x)) then 0%Qc else 1%Qc in
  linear Qcops 0%Qc /\ march Qcops prog (fun _ _ => 1%Qc) 1 m (TZZ, 4, 2) = Q2Qc (1 # 10).
Proof. cbv zeta. split; [exact Qc_linear|vm_compute; reflexivity]. Qed.

(** ** C40 *)
(** The wave field at a cell after n steps depends on the medium, the initial wave field and
    the sources within n*reach cells only, where reach is iorder (and 3 more at a free
    surface). *)
Theorem C40_domain_of_dependence : forall {V} (O : ops V) g b surface src_type sources dxi ischeme sh n f x z m1 m2 ampl1 ampl2,
  top b <> 3 -> bot b <> 3 -> lef b <> 3 -> rig b <> 3 -> wavefield f = true ->
  let r := Z.of_nat n * reach g b in
  agree_near r x z m1 m2 ->
  (forall k s i, nth_error sources k = Some s ->
     Z.abs (fst s + fst (src_offset g b src_type) - x) <= r -> Z.abs (snd s + snd (src_offset g b src_type) - z) <= r ->
     ampl1 i (Z.of_nat k) = ampl2 i (Z.of_nat k)) ->
  let prog := fd_kernel g b surface src_type sources dxi ischeme sh in
  march O prog ampl1 n m1 (f, x, z) = march O prog ampl2 n m2 (f, x, z).
Proof.
  intros V O g b surface src_type sources dxi ischeme sh n f x z m1 m2 ampl1 ampl2 Ht Hb Hl Hr Hf r A S prog.
  destruct (march_local O x z g b surface src_type sources dxi ischeme sh r ltac:(auto) m1 m2 ampl1 ampl2 A) with (n := n) as (W & _ & _).
  - intros k s i Hs [N1 N2]. eapply S; eauto.
  - cbv zeta in W. apply W; [exact Hf|]. unfold r. rewrite Z.sub_diag. split; cbn [fst snd]; lia.
Qed.
Print Assumptions C40_domain_of_dependence.
(** two media that differ at distance 5 give the same pressure after one fourth-order step *)
Example C40_nonvacuous : let b := mk_bnd 4 4 4 4 2 in let g := getgrid 9 9 4 b in
  let m1 := fun x : loc => 1%Q in let m2 := fun '((f, ix, iz) : loc) => if (ix =? 10) && negb (match f with TAPX | TAPZ | TAPXZ => true | _ => false end) then 2%Q else 1%Q in
  reach g b = 4 /\ agree_near (1 * reach g b) 5 5 m1 m2 /\ m1 (ROX, 10, 5) <> m2 (ROX, 10, 5).
Proof.
  cbv zeta. conjs; [reflexivity| |cbn; discriminate].
  intros [[f ix] iz]. cbn [fst]. unfold near. cbn [fst snd].
  assert (E : forall f', Z.abs (ix - 5) <= 1 * reach (getgrid 9 9 4 (mk_bnd 4 4 4 4 2)) (mk_bnd 4 4 4 4 2) /\
     Z.abs (iz - 5) <= 1 * reach (getgrid 9 9 4 (mk_bnd 4 4 4 4 2)) (mk_bnd 4 4 4 4 2) -> 1%Q = (if (ix =? 10) && negb f' then 2%Q else 1%Q)).
  { intros f' [H _]. change (1 * reach _ _) with 4 in H. destruct (Z.eqb_spec ix 10); [lia|reflexivity]. }
  destruct f; try (intros H; now apply E); rewrite ?andb_false_r; auto.
Qed.
