(** C50 to C52: one time step is the staggered-grid leapfrog scheme at every cell, the
    difference coefficients are accurate, and the free surface is free. *)
From Coq Require Import ZArith List Bool QArith Lia.
From Verif Require Import ListAux FdMachine FdKernels FdSpec FdProofs FdReads FdBounds FdRace FdLinear FdLocal FdSchedules FdScheme.
Import ListNotations.
Local Open Scope Z_scope.

(** ** C50 *)
Lemma exec_all_ext {V} (O : ops V) l : forall m m' , (forall k, m k = m' k) -> forall k, exec_all O l m k = exec_all O l m' k.
Proof.
  induction l as [|a r IH]; intros m m' E k; [apply E|]. cbn [exec_all fold_left]. apply IH. intros x. unfold exec, upd.
  destruct (loc_eq_dec x (tgt a)); [apply (eval_ext O); auto|apply E].
Qed.
Lemma no_V g b el surface : top b = 4 -> bot b = 4 -> lef b = 4 -> rig b = 4 -> flat_map (work 1) (boundariesV g b el surface) = [].
Proof. intros Ht Hb Hl Hr. unfold boundariesV. rewrite Ht, Hb, Hl, Hr. destruct el; reflexivity. Qed.

Lemma shape g b el surface vx vz p src (l := flat_map (fun '(k, s) => source_at g b el 1 (snd src) k s) (combine (seq 0 (length (fst src))) (fst src))) :
  flat_map (work 1) (boundariesV g b el surface) = [] ->
  flat_map (work 1) ([For vx; For vz; Barrier] ++ boundariesP g b el surface ++ [For p; Barrier] ++ applySource g b el 1 (fst src) (snd src) ++ boundariesV g b el surface) =
  flat_map (work 1) ([For vx; For vz; Barrier] ++ boundariesP g b el surface) ++ p ++ l.
Proof.
  intros E. rewrite !flat_map_app, E, app_nil_r, <- !app_assoc. do 2 f_equal. cbn [flat_map work applySource omp_for]. now rewrite !app_nil_r.
Qed.
Lemma p_acoustic_ext {V} (O : ops V) (m v m' v' : mem) cs ix iz : m (TZZ, ix, iz) = m' (TZZ, ix, iz) -> m (L2M, ix, iz) = m' (L2M, ix, iz) ->
  (forall x z, v (VX, x, z) = v' (VX, x, z)) -> (forall x z, v (VZ, x, z) = v' (VZ, x, z)) -> p_acoustic O m v cs ix iz = p_acoustic O m' v' cs ix iz.
Proof.
  intros A B C D. unfold p_acoustic. rewrite A, B. do 2 f_equal. erewrite stencil_from_ext; [erewrite (stencil_ext O cs); [reflexivity|]|];
    intros k; unfold right_diff, down_diff; now rewrite ?C, ?D.
Qed.
Theorem C50_acoustic_step : forall {V} (O : ops V) nx nz iorder b cs surface sources dxi (m : mem),
  0 < nx -> 0 < nz -> 0 < npml b -> top b = 4 -> bot b = 4 -> lef b = 4 -> rig b = 4 -> NoDup sources ->
  (iorder = 4 /\ cs = optimal4) \/ (iorder = 6 /\ cs = taylor6) \/ (iorder = 16 /\ cs = optimal16) ->
  let g := getgrid nx nz iorder b in let n := npml b in
  let m' := serial O (fd_kernel g b surface 1 sources dxi 1 false) m in
  (forall ix iz, ioXx g - n <= ix < ieXx g + n -> ioXz g - n <= iz < ieXz g + n ->
     m' (VX, ix, iz) = tapered_value O m TAPX (beyond (ioXx g) (ieXx g) ix) (beyond (ioXz g) (ieXz g) iz)
       (vx_acoustic O m cs ix iz) (vx_acoustic O m taylor4 ix iz)) /\
  (forall ix iz, ioZx g - n <= ix < ieZx g + n -> ioZz g - n <= iz < ieZz g + n ->
     m' (VZ, ix, iz) = tapered_value O m TAPZ (beyond (ioZx g) (ieZx g) ix) (beyond (ioZz g) (ieZz g) iz)
       (vz_acoustic O m cs ix iz) (vz_acoustic O m taylor4 ix iz)) /\
  (forall ix iz, ioPx g <= ix < iePx g -> ioPz g <= iz < iePz g ->
     (forall s, In s sources -> 0 <= fst s <= nx -> (fst s + (ioPx g + n), snd s + (ioPz g + n)) <> (ix, iz)) ->
     m' (TZZ, ix, iz) = p_acoustic O m m' cs ix iz) /\
  (forall k s, nth_error sources k = Some s -> 0 <= fst s <= nx -> 0 <= snd s <= nz ->
     let ix := fst s + (ioPx g + n) in let iz := snd s + (ioPz g + n) in
     m' (TZZ, ix, iz) = v_add O (p_acoustic O m m' cs ix iz) (v_mul O (m (SRC, Z.of_nat k, 0)) (v_mul O (v_lit O dxi) (m (L2M, ix, iz))))) /\
  (forall f ix iz, f <> VX -> f <> VZ -> f <> TZZ -> m' (f, ix, iz) = m (f, ix, iz)).
Proof.
  intros V O nx nz iorder b cs surface sources dxi m Hnx Hnz Hn Ht Hb Hl Hr N Ho.
  assert (H : exists h, iorder = 2 * h /\ 2 <= h /\ Z.of_nat (length (map Lit cs)) <= h /\ cs <> [] /\
    let g := getgrid nx nz (2 * h) b in
    flat_map (work 1) (fd_kernel g b surface 1 sources dxi 1 false) = flat nx nz h b surface sources dxi (vx_ac (map Lit cs)) (vz_ac (map Lit cs)) (p_ac (map Lit cs))).
  { assert (NV : forall g, flat_map (work 1) (boundariesV g b false surface) = []) by (intros; now apply no_V).
    destruct Ho as [(-> & ->)|[(-> & ->)|(-> & ->)]]; [exists 2|exists 3|exists 8]; (split; [reflexivity|split; [lia|split; [cbn; lia|split; [discriminate|]]]]); cbv zeta.
    - change (fd_kernel _ _ _ _ _ _ _ _) with (acoustic4 (getgrid nx nz 4 b) b false surface 1 sources dxi). apply (shape (getgrid nx nz 4 b) b false surface _ _ _ (sources, dxi)), NV.
    - change (fd_kernel _ _ _ _ _ _ _ _) with (acoustic6 (getgrid nx nz 6 b) b false surface 1 sources dxi). apply (shape (getgrid nx nz 6 b) b false surface _ _ _ (sources, dxi)), NV.
    - change (fd_kernel _ _ _ _ _ _ _ _) with (acoustic16 (getgrid nx nz 16 b) b false surface 1 sources dxi). apply (shape (getgrid nx nz 16 b) b false surface _ _ _ (sources, dxi)), NV. }
  destruct H as (h & -> & Hh & Hc & Nc & Hf). cbv zeta in *. unfold serial. rewrite Hf. clear Ho Hf.
  assert (Lc : literals (map Lit cs)) by (apply Forall_forall; intros e He; apply in_map_iff in He as (q & <- & _); reflexivity).
  assert (Hex : forall ix iz, vel_act h (minus_eq VX ix iz (vx_ac (map Lit cs) ix iz))) by (intros; now apply cl_vx_ac).
  assert (Hez : forall ix iz, vel_act h (minus_eq VZ ix iz (vz_ac (map Lit cs) ix iz))) by (intros; now apply cl_vz_ac).
  assert (Hep : forall ix iz, str_act h (minus_eq TZZ ix iz (p_ac (map Lit cs) ix iz))) by (intros; now apply cl_p_ac).
  set (fl := flat _ _ _ _ _ _ _ _ _ _).
  assert (M3 : forall f ix iz, f <> TZZ -> exec_all O fl m (f, ix, iz) = exec_all O (flat_map (work 1) ([For (vx_loop (getgrid nx nz (2 * h) b) (vx_ac (map Lit cs)));
     For (vz_loop (getgrid nx nz (2 * h) b) (vz_ac (map Lit cs))); Barrier] ++ boundariesP (getgrid nx nz (2 * h) b) b false surface)) m (f, ix, iz))
    by (intros; apply m3_vel; auto).
  assert (M1 : forall f ix iz, f <> VX -> f <> VZ -> exec_all O (flat_map (work 1) ([For (vx_loop (getgrid nx nz (2 * h) b) (vx_ac (map Lit cs)));
     For (vz_loop (getgrid nx nz (2 * h) b) (vz_ac (map Lit cs))); Barrier] ++ boundariesP (getgrid nx nz (2 * h) b) b false surface)) m (f, ix, iz) = m (f, ix, iz))
    by (intros; eapply m1_other; eauto).
  set (m1 := exec_all O (flat_map _ _) m) in *.
  assert (E2 : forall ix iz, ioPx (getgrid nx nz (2 * h) b) <= ix < iePx (getgrid nx nz (2 * h) b) -> ioPz (getgrid nx nz (2 * h) b) <= iz < iePz (getgrid nx nz (2 * h) b) ->
     exec_all O (p_loop (getgrid nx nz (2 * h) b) (p_ac (map Lit cs))) m1 (TZZ, ix, iz) = p_acoustic O m (exec_all O fl m) cs ix iz).
  { intros ix iz Hx Hz. unfold m1 at 1. rewrite (p_value nx nz h) by auto. fold m1. rewrite eval_p by exact Nc.
    apply p_acoustic_ext; [apply M1; discriminate|apply M1; discriminate| |]; intros; symmetry; apply M3; discriminate. }
  conjs.
  - intros ix iz Hx Hz. rewrite M3 by discriminate. unfold m1. rewrite vel_x by auto. unfold vx_bnd. change coef4 with (map Lit taylor4).
    now rewrite !eval_vx_ac by (discriminate || exact Nc).
  - intros ix iz Hx Hz. rewrite M3 by discriminate. unfold m1. rewrite vel_z by auto. unfold vz_bnd. change coef4 with (map Lit taylor4).
    now rewrite !eval_vz_ac by (discriminate || exact Nc).
  - intros ix iz Hx Hz Hs. rewrite <- E2 by assumption. unfold fl. rewrite flat_m3. fold m1. apply src_frame; auto.
  - intros k s Hk Hs Hz. rewrite <- E2 by (cbn [getgrid ioPx iePx ioPz iePz]; rewrite ?Hl, ?Hr, ?Ht, ?Hb; cbn [tapered Z.eqb Pos.eqb]; lia).
    unfold fl. rewrite flat_m3. fold m1. 
    rewrite (src_value nx nz h b false sources dxi Hl Ht N O (exec_all O (p_loop (getgrid nx nz (2 * h) b) (p_ac (map Lit cs))) m1) k s TZZ Hk Hs (or_introl eq_refl)).
    assert (F : forall f x z, f <> TZZ -> f <> VX -> f <> VZ -> exec_all O (p_loop (getgrid nx nz (2 * h) b) (p_ac (map Lit cs))) m1 (f, x, z) = m (f, x, z)).
    { intros f x z A B C. rewrite <- M1 by assumption. apply (p_frame nx nz h); auto. intros [? _]; congruence. }
    rewrite (F SRC), (F L2M) by discriminate. reflexivity.
  - intros f ix iz A B C. rewrite M3 by assumption. now apply M1.
Qed.
Print Assumptions C50_acoustic_step.


(** the SH variant: the roles of the medium parameters are exchanged in the interior, not in
    the tapers *)
Theorem C50_sh_step : forall {V} (O : ops V) nx nz b surface dxi (m : mem),
  0 < nx -> 0 < nz -> 0 < npml b -> top b = 4 -> bot b = 4 -> lef b = 4 -> rig b = 4 ->
  let g := getgrid nx nz 4 b in let n := npml b in
  let m' := serial O (fd_kernel g b surface 1 [] dxi 1 true) m in
  (forall ix iz, ioXx g - n <= ix < ieXx g + n -> ioXz g - n <= iz < ieXz g + n ->
     m' (VX, ix, iz) = tapered_value O m TAPX (beyond (ioXx g) (ieXx g) ix) (beyond (ioXz g) (ieXz g) iz)
       (v_sub O (m (VX, ix, iz)) (v_mul O (m (L2M, ix, iz)) (stencil O taylor4 (left_diff O m TZZ ix iz)))) (vx_acoustic O m taylor4 ix iz)) /\
  (forall ix iz, ioZx g - n <= ix < ieZx g + n -> ioZz g - n <= iz < ieZz g + n ->
     m' (VZ, ix, iz) = tapered_value O m TAPZ (beyond (ioZx g) (ieZx g) ix) (beyond (ioZz g) (ieZz g) iz)
       (v_sub O (m (VZ, ix, iz)) (v_mul O (m (L2M, ix, iz)) (stencil O taylor4 (up_diff O m TZZ ix iz)))) (vz_acoustic O m taylor4 ix iz)) /\
  (forall ix iz, ioPx g <= ix < iePx g -> ioPz g <= iz < iePz g ->
     m' (TZZ, ix, iz) = v_sub O (m (TZZ, ix, iz)) (v_mul O (m (ROX, ix, iz))
       (stencil_from O (stencil O taylor4 (right_diff O m' VX ix iz)) taylor4 (down_diff O m' VZ ix iz)))).
Proof.
  intros V O nx nz b surface dxi m Hnx Hnz Hn Ht Hb Hl Hr g n. unfold n, g. clear n g.
  assert (Hf : flat_map (work 1) (fd_kernel (getgrid nx nz (2 * 2) b) b surface 1 [] dxi 1 true) = flat nx nz 2 b surface [] dxi vx_sh vz_sh p_sh).
  { change (fd_kernel _ _ _ _ _ _ _ _) with (acousticSH4 (getgrid nx nz 4 b) b false surface 1 [] dxi).
    apply (shape (getgrid nx nz 4 b) b false surface _ _ _ ([], dxi)). now apply no_V. }
  change 4 with (2 * 2) at 1. unfold serial. cbv zeta. change (getgrid nx nz 4 b) with (getgrid nx nz (2 * 2) b). rewrite Hf.
  assert (Hex : forall ix iz, vel_act 2 (minus_eq VX ix iz (vx_sh ix iz))) by (intros; apply cl_vx_sh; lia).
  assert (Hez : forall ix iz, vel_act 2 (minus_eq VZ ix iz (vz_sh ix iz))) by (intros; apply cl_vz_sh; lia).
  assert (Hep : forall ix iz, str_act 2 (minus_eq TZZ ix iz (p_sh ix iz))) by (intros; apply cl_p_sh; lia).
  set (fl := flat _ _ _ _ _ _ _ _ _ _).
  assert (M3 : forall f ix iz, f <> TZZ -> exec_all O fl m (f, ix, iz) = exec_all O (flat_map (work 1) ([For (vx_loop (getgrid nx nz (2 * 2) b) vx_sh);
     For (vz_loop (getgrid nx nz (2 * 2) b) vz_sh); Barrier] ++ boundariesP (getgrid nx nz (2 * 2) b) b false surface)) m (f, ix, iz))
    by (intros; apply m3_vel; auto; (lia || apply NoDup_nil)).
  assert (M1 : forall f ix iz, f <> VX -> f <> VZ -> exec_all O (flat_map (work 1) ([For (vx_loop (getgrid nx nz (2 * 2) b) vx_sh);
     For (vz_loop (getgrid nx nz (2 * 2) b) vz_sh); Barrier] ++ boundariesP (getgrid nx nz (2 * 2) b) b false surface)) m (f, ix, iz) = m (f, ix, iz))
    by (intros; eapply m1_other; eauto; lia).
  set (m1 := exec_all O (flat_map _ _) m) in *.
  conjs.
  - intros ix iz Hx Hz. rewrite M3 by discriminate. unfold m1. rewrite vel_x by (auto; lia). unfold vx_bnd. change coef4 with (map Lit taylor4).
    rewrite eval_vx_ac by discriminate. reflexivity.
  - intros ix iz Hx Hz. rewrite M3 by discriminate. unfold m1. rewrite vel_z by (auto; lia). unfold vz_bnd. change coef4 with (map Lit taylor4).
    rewrite eval_vz_ac by discriminate. reflexivity.
  - intros ix iz Hx Hz. transitivity (exec_all O (p_loop (getgrid nx nz (2 * 2) b) p_sh) m1 (TZZ, ix, iz)).
    { unfold fl. rewrite flat_m3. fold m1. apply src_frame; auto using NoDup_nil. }
    unfold m1 at 1. rewrite (p_value nx nz 2) by (auto; lia). fold m1. unfold p_sh. cbn [eval]. change coef4 with (map Lit taylor4).
    rewrite (eval_sum_app O m1 _ (right_diff O m1 VX ix iz) _ (down_diff O m1 VZ ix iz) taylor4); try (discriminate || (intros; reflexivity)).
    rewrite (M1 TZZ), (M1 ROX) by discriminate. do 2 f_equal.
    erewrite stencil_from_ext; [erewrite (stencil_ext O taylor4); [reflexivity|]|]; intros k; unfold right_diff, down_diff; rewrite !M3 by discriminate; reflexivity.
Qed.
Print Assumptions C50_sh_step.

Theorem C50_elastic_step : forall {V} (O : ops V) nx nz b surface sources dxi sh (m : mem),
  0 < nx -> 0 < nz -> 0 < npml b -> top b = 4 -> bot b = 4 -> lef b = 4 -> rig b = 4 -> NoDup sources ->
  let g := getgrid nx nz 6 b in let n := npml b in
  let m' := serial O (fd_kernel g b surface 1 sources dxi 3 sh) m in
  (forall ix iz, ioXx g - n <= ix < ieXx g + n -> ioXz g - n <= iz < ieXz g + n ->
     m' (VX, ix, iz) = tapered_value O m TAPX (beyond (ioXx g) (ieXx g) ix) (beyond (ioXz g) (ieXz g) iz)
       (vx_elastic O m taylor6 ix iz) (vx_elastic O m taylor4 ix iz)) /\
  (forall ix iz, ioZx g - n <= ix < ieZx g + n -> ioZz g - n <= iz < ieZz g + n ->
     m' (VZ, ix, iz) = tapered_value O m TAPZ (beyond (ioZx g) (ieZx g) ix) (beyond (ioZz g) (ieZz g) iz)
       (vz_elastic O m taylor6 ix iz) (vz_elastic O m taylor4 ix iz)) /\
  (forall ix iz, ioPx g <= ix < iePx g -> ioPz g <= iz < iePz g ->
     (forall s, In s sources -> 0 <= fst s <= nx -> (fst s + (ioPx g + n), snd s + (ioPz g + n)) <> (ix, iz)) ->
     m' (TXX, ix, iz) = txx_elastic O m m' LAM taylor6 ix iz /\ m' (TZZ, ix, iz) = tzz_elastic O m m' LAM taylor6 ix iz) /\
  (forall k s, nth_error sources k = Some s -> 0 <= fst s <= nx -> 0 <= snd s <= nz ->
     let ix := fst s + (ioPx g + n) in let iz := snd s + (ioPz g + n) in
     let ampl := v_mul O (m (SRC, Z.of_nat k, 0)) (v_mul O (v_lit O dxi) (m (L2M, ix, iz))) in
     m' (TXX, ix, iz) = v_add O (txx_elastic O m m' LAM taylor6 ix iz) ampl /\
     m' (TZZ, ix, iz) = v_add O (tzz_elastic O m m' LAM taylor6 ix iz) ampl) /\
  (forall ix iz, ioTx g <= ix < ieTx g -> ioTz g <= iz < ieTz g -> m' (TXZ, ix, iz) = txz_elastic O m m' taylor6 ix iz) /\
  (forall f ix iz, wavefield f = false -> m' (f, ix, iz) = m (f, ix, iz)).
Proof.
  intros V O nx nz b surface sources dxi sh m Hnx Hnz Hn Ht Hb Hl Hr N g n. unfold n, g. clear n g.
  set (cs := coef6). assert (Ec : cs = map Lit taylor6) by reflexivity.
  assert (Lc : literals cs) by exact lit_coef6. assert (Hc : Z.of_nat (length cs) <= 3) by (cbn; lia).
  assert (Hf : flat_map (work 1) (fd_kernel (getgrid nx nz (2 * 3) b) b surface 1 sources dxi 3 sh) = flat_el nx nz 3 b surface sources dxi cs).
  { change (fd_kernel _ _ _ _ _ _ _ _) with (elastic6 (getgrid nx nz 6 b) b true surface 1 sources dxi). unfold elastic6, flat_el, strs, force, stress.
    change (2 * 3) with 6. change (when (5 <? 1) ?l) with (@nil item). change (when (1 <? 6) ?l) with l.
    rewrite app_nil_l. pose proof (no_V (getgrid nx nz 6 b) b true surface Ht Hb Hl Hr) as NV.
    rewrite !flat_map_app, NV, app_nil_r, <- !app_assoc. do 2 f_equal. cbn [flat_map work applySource omp_for]. rewrite !app_nil_r, <- app_assoc. reflexivity. }
  unfold serial. cbv zeta. change (getgrid nx nz 6 b) with (getgrid nx nz (2 * 3) b). rewrite Hf.
  set (fl := flat_el _ _ _ _ _ _ _ _). set (G := getgrid nx nz (2 * 3) b).
  set (m1 := exec_all O (flat_map (work 1) ([For (vx_loop G (vx_el cs)); For (vz_loop G (vz_el cs)); Barrier] ++ boundariesP G b true surface)) m).
  set (m2 := exec_all O (strs nx nz 3 b cs) m1).
  assert (E3 : exec_all O fl m = exec_all O (src_list nx nz 3 b true sources dxi) m2) by apply flat_el_m3.
  assert (M1 : forall f ix iz, f <> VX -> f <> VZ -> m1 (f, ix, iz) = m (f, ix, iz)) by (intros; apply m1_el_other; auto; lia).
  assert (M3 : forall f ix iz, f <> TZZ -> f <> TXX -> exec_all O fl m (f, ix, iz) = m2 (f, ix, iz)) by (intros; apply m3_el_other; auto).
  assert (M2 : forall f ix iz, f <> TXX -> f <> TZZ -> f <> TXZ -> m2 (f, ix, iz) = m1 (f, ix, iz))
    by (intros; apply (strs_frame nx nz 3); auto; try lia; intuition congruence).
  assert (MV : forall f ix iz, f <> TXX -> f <> TZZ -> f <> TXZ -> exec_all O fl m (f, ix, iz) = m1 (f, ix, iz)) by (intros; rewrite M3, M2 by assumption; reflexivity).
  assert (Hex : forall ix iz, vel_act 3 (minus_eq VX ix iz (vx_el cs ix iz))) by (intros; apply cl_vx_el; auto; lia).
  assert (Hez : forall ix iz, vel_act 3 (minus_eq VZ ix iz (vz_el cs ix iz))) by (intros; apply cl_vz_el; auto; lia).
  assert (EX : forall ix iz, ioPx G <= ix < iePx G -> ioPz G <= iz < iePz G -> m2 (TXX, ix, iz) = txx_elastic O m (exec_all O fl m) LAM taylor6 ix iz).
  { intros ix iz Hx Hz. transitivity (eval O m1 (Sub (Rd TXX ix iz) (txx_el cs LAM ix iz))); [apply (strs_xx nx nz 3 b surface); auto; lia|]. rewrite Ec, eval_txx by discriminate.
    unfold txx_elastic. rewrite !M1 by discriminate. f_equal. f_equal; f_equal; apply stencil_ext; intros k; unfold right_diff, down_diff; rewrite !MV by discriminate; reflexivity. }
  assert (EZ : forall ix iz, ioPx G <= ix < iePx G -> ioPz G <= iz < iePz G -> m2 (TZZ, ix, iz) = tzz_elastic O m (exec_all O fl m) LAM taylor6 ix iz).
  { intros ix iz Hx Hz. transitivity (eval O m1 (Sub (Rd TZZ ix iz) (tzz_el cs LAM ix iz))); [apply (strs_zz nx nz 3 b surface); auto; lia|]. rewrite Ec, eval_tzz by discriminate.
    unfold tzz_elastic. rewrite !M1 by discriminate. f_equal. f_equal; f_equal; apply stencil_ext; intros k; unfold right_diff, down_diff; rewrite !MV by discriminate; reflexivity. }
  conjs.
  - intros ix iz Hx Hz. rewrite MV by discriminate. unfold m1. unfold G in *. rewrite vel_x by (auto; lia). unfold vx_bnd. change coef4 with (map Lit taylor4).
    rewrite Ec. now rewrite !eval_vx_el by discriminate.
  - intros ix iz Hx Hz. rewrite MV by discriminate. unfold m1. unfold G in *. rewrite vel_z by (auto; lia). unfold vz_bnd. change coef4 with (map Lit taylor4).
    rewrite Ec. now rewrite !eval_vz_el by discriminate.
  - intros ix iz Hx Hz Hs. rewrite <- EX, <- EZ by assumption. rewrite E3. split; apply src_frame; auto.
  - intros k s Hk Hs Hz.
    assert (R : ioPx G <= fst s + (ioPx G + npml b) < iePx G /\ ioPz G <= snd s + (ioPz G + npml b) < iePz G).
    { unfold G. cbn [getgrid ioPx iePx ioPz iePz]. rewrite ?Hl, ?Hr, ?Ht, ?Hb. cbn [tapered Z.eqb Pos.eqb]. lia. }
    rewrite <- EX, <- EZ by apply R. rewrite E3.
    rewrite <- (M1 SRC), <- (M1 L2M), <- (M2 SRC), <- (M2 L2M) by discriminate.
    split; [apply (src_value nx nz 3 b true sources dxi Hl Ht N O m2 k s TXX Hk Hs); auto|apply (src_value nx nz 3 b true sources dxi Hl Ht N O m2 k s TZZ Hk Hs); auto].
  - intros ix iz Hx Hz. rewrite M3 by discriminate. transitivity (eval O m1 (Sub (Rd TXZ ix iz) (txz_el cs ix iz))); [apply (strs_xz nx nz 3 b surface); auto; lia|]. rewrite Ec, eval_txz by discriminate.
    unfold txz_elastic. rewrite !M1 by discriminate. do 2 f_equal. apply stencil_ext. intros k. unfold both, up_pair, left_pair. cbn [fst snd]. rewrite !MV by discriminate. reflexivity.
  - intros f ix iz Hw. rewrite MV, M1 by (intros ->; discriminate). reflexivity.
Qed.
Print Assumptions C50_elastic_step.

(** a 3 by 2 model with tapers of 2 cells and a source: the interior, a taper and the source *)
Example C50_nonvacuous : let b := mk_bnd 4 4 4 4 2 in let g := getgrid 3 2 4 b in
  let m := fun '((f, ix, iz) : loc) => match f with TZZ => inject_Z (ix * ix + iz) | SRC => 7%Q | TAPX => 1 # 2 | _ => 1%Q end in
  let m' := serial Qops (fd_kernel g b (fun _ => 0) 1 [(1, 1)] (1 # 10) 1 false) m in
  (ioXx g <= 5 < ieXx g /\ ioXz g <= 3 < ieXz g /\ Qeq (m' (VX, 5, 3)) (1 - ((1129042 # 1000000) * 9 - (4301412 # 100000000) * 27))) /\
  (beyond (ioXx g) (ieXx g) 2 = Some 1 /\ Qeq (m' (VX, 2, 3)) ((1 - ((9 # 8) * 3 - (1 # 24) * 9)) * (1 # 2))) /\
  NoDup [(1, 1)].
Proof.
  cbv zeta. conjs; try (vm_compute; congruence).
  apply NoDup_cons; [intros []|apply NoDup_nil].
Qed.

(** ** C51 *)
Local Open Scope Q_scope.
(** f(x+1/2) - f(x-1/2), f(x+3/2) - f(x-3/2), ... *)
Definition half_differences (f : Q -> Q) (x : Q) (k : Z) : Q := f (x + inject_Z k + (1 # 2)) - f (x - inject_Z k - (1 # 2)).
Theorem C51_taylor4_exact : forall p x, (length p <= 5)%nat -> stencil Qops taylor4 (half_differences (poly p) x) == dpoly p x.
Proof.
  intros p x Hp. do 6 (destruct p as [|? p]; [cbn; unfold half_differences; cbn; ring|]). cbn in Hp. lia.
Qed.
Print Assumptions C51_taylor4_exact.
Theorem C51_taylor6_exact : forall p x, (length p <= 7)%nat -> stencil Qops taylor6 (half_differences (poly p) x) == dpoly p x.
Proof.
  intros p x Hp. do 8 (destruct p as [|? p]; [cbn; unfold half_differences; cbn; ring|]). cbn in Hp. lia.
Qed.
Print Assumptions C51_taylor6_exact.
(** the optimised coefficients: the derivative of quadratic fields within one millionth *)
Theorem C51_optimal : forall cs, In cs [optimal4; optimal16] -> exists c, 1 - (1 # 1000000) <= c <= 1 + (1 # 1000000) /\
  forall p x, (length p <= 3)%nat -> stencil Qops cs (half_differences (poly p) x) == c * dpoly p x.
Proof.
  intros cs [<-|[<-|[]]].
  - exists (99999964 # 100000000). split; [split; vm_compute; congruence|].
    intros p x Hp. do 4 (destruct p as [|? p]; [cbn; unfold half_differences; cbn; ring|]). cbn in Hp. lia.
  - exists ((1259312 # 1000000) + 3 * (-1280347 # 10000000) + 5 * (3841945 # 100000000) + 7 * (-1473229 # 100000000) + 9 * (5924913 # 1000000000) +
      11 * (-2248618 # 1000000000) + 13 * (7179226 # 10000000000) + 15 * (-1400855 # 10000000000)). split; [split; vm_compute; congruence|].
    intros p x Hp. do 4 (destruct p as [|? p]; [cbn; unfold half_differences; cbn; ring|]). cbn in Hp. lia.
Qed.
Print Assumptions C51_optimal.
(** not more: the fourth-order coefficients are not exact for degree 5 *)
Example C51_nonvacuous : ~ stencil Qops taylor4 (half_differences (poly [0; 0; 0; 0; 0; 1]) 0) == dpoly [0; 0; 0; 0; 0; 1] 0 /\
  stencil Qops taylor4 (half_differences (poly [3; 1; 4; 1; 5]) 2) == 189.
Proof. split; [intros H; vm_compute in H; discriminate|vm_compute; reflexivity]. Qed.
Local Close Scope Q_scope.

(** ** C52 *)
Lemma exec_all_frame {V} (O : ops V) l : forall m x, ~ In x (map tgt l) -> exec_all O l m x = m x.
Proof.
  induction l as [|a r IH]; intros m x H; [reflexivity|]. cbn [exec_all fold_left]. cbn [map In] in H.
  change (exec_all O r (exec O m a) x = m x). rewrite IH by tauto. unfold exec, upd. destruct (loc_eq_dec x (tgt a)); [subst; tauto|reflexivity].
Qed.
Theorem C52_free_surface : forall {V} (O : ops V) nx nz iorder b surface sources dxi sh (m : mem),
  0 < nx -> 0 < nz -> 0 < npml b -> top b = 1 -> bot b = 4 -> lef b = 4 -> rig b = 4 -> (iorder = 4 \/ iorder = 6 \/ iorder = 16) ->
  let g := getgrid nx nz iorder b in
  let m' := serial O (fd_kernel g b surface 1 sources dxi 1 sh) m in
  (forall ix, ioPx g <= ix < iePx g -> m' (TZZ, ix, surface ix) = v_lit O 0) /\
  (forall ix, ioZx g <= ix < ieZx g -> surface ix + 2 < ieZz g ->
     m' (VZ, ix, surface ix) = m' (VZ, ix, surface ix + 1) /\ m' (VZ, ix, surface ix - 1) = m' (VZ, ix, surface ix + 2)).
Proof.
  intros V O nx nz iorder b surface sources dxi sh m Hnx Hnz Hn Ht Hb Hl Hr Ho g m'.
  assert (H : exists vx vz p, flat_map (work 1) (fd_kernel g b surface 1 sources dxi 1 sh) = (vx_loop g vx ++ vz_loop g vz) ++ free_top g surface ++
     flat_map (work 1) (taper_bot g b false ++ taper_lef g b false ++ taper_rig g b false) ++ p_loop g p ++
     flat_map (fun '(k, s) => source_at g b false 1 dxi k s) (combine (seq 0 (length sources)) sources) ++
     map (fun ix => mk_action (TZZ, ix, surface ix) (lit 0 1)) (range (ioPx g) (iePx g))).
  { assert (D : forall vx vz p, flat_map (work 1) ([For (vx_loop g vx); For (vz_loop g vz); Barrier] ++ boundariesP g b false surface ++ [For (p_loop g p); Barrier] ++
        applySource g b false 1 sources dxi ++ boundariesV g b false surface) = (vx_loop g vx ++ vz_loop g vz) ++ free_top g surface ++
        flat_map (work 1) (taper_bot g b false ++ taper_lef g b false ++ taper_rig g b false) ++ p_loop g p ++
        flat_map (fun '(k, s) => source_at g b false 1 dxi k s) (combine (seq 0 (length sources)) sources) ++
        map (fun ix => mk_action (TZZ, ix, surface ix) (lit 0 1)) (range (ioPx g) (iePx g))).
    { intros vx vz p. unfold boundariesP, boundariesV. rewrite Ht, Hb, Hl, Hr. cbn [Z.eqb Pos.eqb tapered negb andb when app].
      cbn [flat_map work]. rewrite ?app_nil_l, <- ?app_assoc. do 3 f_equal. rewrite !flat_map_app, <- !app_assoc. do 3 f_equal.
      cbn [flat_map work applySource omp_for app]. rewrite ?app_nil_l, ?app_nil_r, <- ?app_assoc. reflexivity. }
    unfold fd_kernel. change (FdKernels.iorder g) with iorder. destruct Ho as [-> | [-> | ->]]; cbv iota; [destruct sh|..];
      do 3 eexists; unfold acousticSH4, acoustic4, acoustic6, acoustic16, acoustic_n, force, stress;
      change (when (5 <? 1) ?l) with (@nil item); change (when (1 <? 6) ?l) with l; rewrite app_nil_l; apply D. }
  destruct H as (vx & vz & p & Hf). unfold m', serial. rewrite Hf. clear Hf m'.
  set (A := vx_loop g vx ++ vz_loop g vz). set (R := flat_map (work 1) _). set (Src := flat_map _ (combine _ _)). set (Z0 := map _ _).
  split.
  - intros ix Hx. rewrite !(exec_all_app O). set (mm := exec_all O Src _).
    assert (C : conflict_free Z0).
    { apply (conflict_free_fields _ [TZZ]).
      - unfold Z0. rewrite map_map. apply FinFun.Injective_map_NoDup; [intros x y E; inversion E; reflexivity|apply NoDup_range].
      - apply Forall_forall. intros a Ha. apply in_map_iff in Ha as (i & <- & _). now left.
      - apply Forall_forall. intros a Ha. apply in_map_iff in Ha as (i & <- & _). intros x []. }
    rewrite (exec_all_sim O _ mm C). change (TZZ, ix, surface ix) with (tgt (mk_action (TZZ, ix, surface ix) (lit 0 1))).
    rewrite sim_in; [reflexivity|apply C|]. apply in_map_iff. exists ix. split; [reflexivity|]. now apply in_range.
  - intros ix Hx Hs.
    assert (Fr : forall mm iz, surface ix - 1 <= iz <= surface ix + 2 ->
       exec_all O (R ++ p_loop g p ++ Src ++ Z0) mm (VZ, ix, iz) = mm (VZ, ix, iz)).
    { intros mm iz Hz. apply exec_all_frame. intros Hi. apply in_map_iff in Hi as (a & E & Ha). rewrite !in_app_iff in Ha.
      destruct Ha as [Ha|[Ha|[Ha|Ha]]].
      - unfold R in Ha. rewrite !flat_map_app, !in_app_iff in Ha. unfold taper_bot, taper_lef, taper_rig in Ha. cbv zeta in Ha. rewrite Hl, Hr in Ha.
        cbn [tapered Z.eqb Pos.eqb when app omp_for flat_map work] in Ha. rewrite ?app_nil_r, ?in_app_iff in Ha.
        decompose [or] Ha; clear Ha; match goal with H : In a (loop _ _ _ _ _) |- _ => apply in_loop in H as (jx & jz & Hjx & Hjz & [<-|[]]) | H : In a [] |- _ => destruct H end;
          cbn [tgt] in E; inversion E; subst; lia.
      - apply in_loop in Ha as (jx & jz & _ & _ & [<-|[]]). discriminate E.
      - unfold Src in Ha. apply in_flat_map in Ha as ([k s] & _ & Ha). unfold source_at in Ha. cbn [Z.eqb Pos.eqb] in Ha.
        destruct (_ || _); [destruct Ha|]. destruct Ha as [<-|[]]. discriminate E.
      - apply in_map_iff in Ha as (i & <- & _). discriminate E. }
    rewrite !(exec_all_app O A), !(exec_all_app O (free_top g surface)). rewrite !Fr by lia. set (mm := exec_all O A m).
    assert (C : conflict_free (free_top g surface)).
    { split.
      - unfold free_top. rewrite map_flat_map. apply NoDup_flat_map; [apply NoDup_range| |].
        + intros i _. cbn [map tgt]. apply NoDup_cons; [|apply NoDup_cons; [intros []|apply NoDup_nil]]. intros [E|[]]. inversion E; lia.
        + intros i j x _ _ Hi Hj. cbn in Hi, Hj. decompose [or] Hi; decompose [or] Hj; try contradiction; subst x; congruence.
      - intros a a' Ha Ha' Hin. apply in_flat_map in Ha as (i & _ & Ha), Ha' as (j & _ & Ha'). cbn in Ha, Ha'.
        exfalso. decompose [or] Ha; decompose [or] Ha'; try contradiction; subst a a'; cbn in Hin; destruct Hin as [E|[]]; inversion E; subst; lia. }
    assert (Pc : ioPx g <= ix < iePx g).
    { cbn [g getgrid ioPx iePx ioZx ieZx] in *. rewrite Hl, Hr in *. cbn [tapered Z.eqb Pos.eqb] in *. lia. }
    assert (S0 : forall y iz, In (mk_action (VZ, ix, iz) (Rd VZ ix y)) (free_top g surface) -> exec_all O (free_top g surface) mm (VZ, ix, iz) = mm (VZ, ix, y)).
    { intros y iz Hi. rewrite (exec_all_sim O _ mm C). change (VZ, ix, iz) with (tgt (mk_action (VZ, ix, iz) (Rd VZ ix y))).
      rewrite sim_in; [reflexivity|apply C|exact Hi]. }
    assert (Fs : forall iz, iz <> surface ix -> iz <> surface ix - 1 -> exec_all O (free_top g surface) mm (VZ, ix, iz) = mm (VZ, ix, iz)).
    { intros iz N1 N2. apply exec_all_frame. intros Hi. apply in_map_iff in Hi as (a & E & Ha). apply in_flat_map in Ha as (j & _ & Ha). cbn in Ha.
      decompose [or] Ha; try contradiction; subst a; cbn in E; inversion E; subst; lia. }
    rewrite (Fs (surface ix + 1)), (Fs (surface ix + 2)) by lia.
    split; apply S0; apply in_flat_map; exists ix; (split; [now apply in_range|]); cbn; auto.
Qed.
Print Assumptions C52_free_surface.
Example C52_nonvacuous : let b := mk_bnd 1 4 4 4 2 in let g := getgrid 3 5 4 b in
  ioZx g <= 4 < ieZx g /\ ioPz g + 2 < ieZz g /\
  let m := fun '((f, ix, iz) : loc) => match f with TZZ => inject_Z (ix * ix + iz * iz * iz) | _ => 1%Q end in
  ~ Qeq (serial Qops (fd_kernel g b (fun _ => ioPz g) 1 [] 1 1 false) m (VZ, 4, ioPz g)) (m (VZ, 4, ioPz g)).
Proof. cbv zeta. conjs; try (vm_compute; congruence). Qed.
